(** * Proofs about statements: machine steps and completions *)

From Coq Require Import List Bool Arith Lia.
From Verif Require Import FlowModel FlowSpec FlowFacts.
Import ListNotations.

Lemma find_label_at code : NoDup (stubs code) ->
  forall l p, nth_error code p = Some (IStub l) -> find_label l code = Some p.
Proof.
  induction code as [|i code IH]; intros ND l p H; [destruct p; discriminate|].
  assert (In_stub : forall p, nth_error code p = Some (IStub l) -> In l (stubs code)).
  { clear. induction code as [|i code IH]; intros p H; [destruct p; discriminate|].
    destruct p as [|p]; cbn in H.
    - injection H as ->. left; reflexivity.
    - apply IH in H. destruct i; cbn; auto. }
  destruct p as [|p]; cbn in H.
  - injection H as ->. cbn. rewrite Nat.eqb_refl. reflexivity.
  - assert (ND' : NoDup (stubs code)) by (destruct i; cbn in ND; auto; inversion ND; auto).
    specialize (IH ND' l p H).
    destruct i; cbn; rewrite ?IH; cbn; auto.
    destruct (Nat.eqb_spec l l0) as [->|N]; [|reflexivity].
    cbn in ND. inversion ND as [|? ? NI]; subst. exfalso. apply NI. apply (In_stub p H).
Qed.

(** ** Running *)

Section Sim.

Variable A : world.

Local Notation W := (W A).
Local Notation V := (V A).
Local Notation K := (Build_config A).
Local Notation config := (config A).
Local Notation completion := (completion A).

Variable code : list instr.
Hypothesis Hnodup : NoDup (stubs code).

Definition at_code (pc : nat) (cs : list instr) : Prop :=
  forall i x, nth_error cs i = Some x -> nth_error code (pc + i) = Some x.

Lemma at_app pc a b : at_code pc (a ++ b) -> at_code pc a /\ at_code (pc + length a) b.
Proof.
  intros H. split; intros i x E.
  - apply H. rewrite nth_error_app1; [exact E|]. apply nth_error_Some. congruence.
  - rewrite <- Nat.add_assoc. apply H. rewrite nth_error_app2 by lia.
    replace (length a + i - length a) with i by lia. exact E.
Qed.

Lemma at_cons pc i r : at_code pc (i :: r) -> nth_error code pc = Some i /\ at_code (pc + 1) r.
Proof.
  intros H. split.
  - specialize (H 0 i eq_refl). rewrite Nat.add_0_r in H. exact H.
  - intros j x E. specialize (H (S j) x E). replace (pc + 1 + j) with (pc + S j) by lia. exact H.
Qed.

Definition live (c : config) : Prop :=
  match md A c with At _ _ | Un _ _ => True | _ => False end.

Lemma run_add a b c : run A (a + b) code c = run A b code (run A a code c).
Proof. revert c. induction a as [|a IH]; intros c; cbn; auto. Qed.

Lemma step_dead c : ~ live c -> step A code c = c.
Proof. unfold live, step. destruct (md A c); tauto. Qed.

Lemma run_dead n c : ~ live c -> run A n code c = c.
Proof. induction n as [|n IH]; intros H; cbn; [reflexivity|]. rewrite step_dead; auto. Qed.

Definition late (n : nat) (c : config) : Prop := live (run A n code c).

Lemma live_dec c : live c \/ ~ live c.
Proof. unfold live. destruct (md A c); tauto. Qed.

Lemma late_le n m c : n <= m -> late m c -> late n c.
Proof.
  intros L H. unfold late in *. destruct (live_dec (run A n code c)) as [|D]; [assumption|].
  replace m with (n + (m - n)) in H by lia. rewrite run_add, run_dead in H by exact D. tauto.
Qed.

Definition reach (c : config) (P : config -> Prop) : Prop := exists n, P (run A n code c).
Definition reachp (c : config) (P : config -> Prop) : Prop := exists n, P (run A (S n) code c).

Lemma reach_now (c : config) (P : config -> Prop) : P c -> reach c P.
Proof. exists 0. assumption. Qed.

Lemma reach_step c P : reach (step A code c) P -> reach c P.
Proof. intros [n H]. exists (S n). exact H. Qed.

Lemma reachp_step c P : reach (step A code c) P -> reachp c P.
Proof. intros [n H]. exists n. exact H. Qed.

Lemma reachp_reach c P : reachp c P -> reach c P.
Proof. intros [n H]. exists (S n). exact H. Qed.

Lemma reach_bind c P Q : reach c P -> (forall c', P c' -> reach c' Q) -> reach c Q.
Proof.
  intros [n H] HQ. destruct (HQ _ H) as [m Hm]. exists (n + m). rewrite run_add. exact Hm.
Qed.

Lemma reachp_bind c P Q : reach c P -> (forall c', P c' -> reachp c' Q) -> reachp c Q.
Proof.
  intros [n H] HQ. destruct (HQ _ H) as [m Hm]. exists (n + m).
  replace (S (n + m)) with (n + S m) by lia. rewrite run_add. exact Hm.
Qed.

Lemma reachp_bind_r c P Q : reachp c P -> (forall c', P c' -> reach c' Q) -> reachp c Q.
Proof.
  intros [n H] HQ. destruct (HQ _ H) as [m Hm]. exists (n + m).
  replace (S (n + m)) with (S n + m) by lia. rewrite run_add. exact Hm.
Qed.

Lemma late_reach n c P : reach c P -> (forall c', P c' -> late n c') -> late n c.
Proof.
  intros [m H] HL. specialize (HL _ H). apply (late_le n (m + n)); [lia|].
  unfold late in *. rewrite run_add. exact HL.
Qed.

Lemma late_reachp n c P : reachp c P -> (forall c', P c' -> late n c') -> late (S n) c.
Proof.
  intros [m H] HL. specialize (HL _ H). apply (late_le (S n) (S m + n)); [lia|].
  unfold late in *. rewrite run_add. exact HL.
Qed.

(** ** Outcomes *)

Definition sim {R : Type} (N : nat) (c : config) (r : option (W * R))
    (Q : W -> R -> config -> Prop) : Prop :=
  match r with
  | None => late N c
  | Some (w, cm) => reach c (Q w cm)
  end.

Lemma sim_bind {R : Type} N c (r : option (W * R)) P Q : reach c P -> (forall c', P c' -> sim N c' r Q) -> sim N c r Q.
Proof.
  destruct r as [[w cm]|]; cbn; intros H HQ.
  - eapply reach_bind; eauto.
  - eapply late_reach; eauto.
Qed.

Lemma sim_step {R : Type} N c (r : option (W * R)) Q : sim N (step A code c) r Q -> sim N c r Q.
Proof.
  intros H. apply (sim_bind N c r (fun c' => c' = step A code c)).
  - apply reach_step, reach_now; reflexivity.
  - intros c' ->. exact H.
Qed.

Lemma sim_map {R R' : Type} N c (r : option (W * R)) Q Q' (f : R -> R') :
  sim N c r Q -> (forall w cm c', Q w cm c' -> reach c' (Q' w (f cm))) ->
  sim N c (match r with Some (w, cm) => Some (w, f cm) | None => None end) Q'.
Proof.
  destruct r as [[w cm]|]; cbn; intros H HQ; [|exact H].
  eapply reach_bind; eauto.
Qed.

(** ** Where a statement leaves the machine *)

Variable q : bool.

Definition calm (x : bool * V) : Prop := q = true \/ fst x = false.
Definition quiet (x x' : bool * V) : Prop := calm x -> calm x'.

Definition vof (ov : option V) (old : V) : V := match ov with Some v => v | None => old end.

Definition frame (n : nat) (r : option nat) (g g' : nat -> V) : Prop :=
  forall y, y < n -> Some y <> r -> g' y = g y.

Definition arrive (r : option nat) (n p : nat) (ov : option V) (c0 : config) (w : W) (c : config) : Prop :=
  exists g' x', c = K (At A p) (stk A c0) g' (env A c0) (retv A c0) x' w
    /\ frame n r (regs A c0) g' /\ quiet (er A c0) x'
    /\ (forall y, r = Some y -> g' y = vof ov (regs A c0 y)).

(** About to perform the rest of a jump: the register [src] holds the
    completion value. *)
Definition carries (r : option nat) (n n' : nat) (src : option nat) (ov : option V)
    (g g' : nat -> V) : Prop :=
  match r with
  | None => src = None
  | Some y => exists z, src = Some z /\ (z = y \/ n <= z < n') /\ g' z = vof ov (g y)
  end.

Definition leave (d : nat) (r : option nat) (n n' : nat) (js : list jump) (t : option nat)
    (ov : option V) (c0 : config) (w : W) (c : config) : Prop :=
  exists j p src g' x', target t js = Some j
    /\ c = K (At A p) (stk A c0) g' (env A c0) (retv A c0) x' w
    /\ at_code p (jump_code d src j)
    /\ frame n r (regs A c0) g' /\ quiet (er A c0) x'
    /\ carries r n n' src ov (regs A c0) g'.

Definition Post (bs cs : list jump) (d : nat) (r : option nat) (n n' : nat)
    (ob oc : option nat -> option nat) (pe : nat) (last : bool) (c0 : config)
    (w : W) (cm : completion) : config -> Prop :=
  match cm with
  | Normal _ ov => arrive r n pe ov c0 w
  | Brk _ t ov =>
      match ob t with
      | Some p => arrive r n p ov c0 w
      | None => leave d r n n' bs t ov c0 w
      end
  | Cont _ t ov =>
      match oc t with
      | Some p => arrive r n p ov c0 w
      | None => leave d r n n' cs t ov c0 w
      end
  | Ret _ v => fun c =>
      exists g' x', c = K (Un A XRet) (stk A c0) g' (env A c0) v x' w
        /\ frame n r (regs A c0) g' /\ quiet (er A c0) x'
  | Thr _ e => fun c =>
      exists g' rt', c = K (Un A XErr) (stk A c0) g' (env A c0) rt' (true, e) w
        /\ frame n r (regs A c0) g' /\ (last = true -> rt' = retv A c0)
  end.

Definition nobody : option nat -> option nat := fun _ => None.

Definition own (ls : list nat) (p : nat) : option nat -> option nat :=
  fun t => match t with
           | Some y => if existsb (Nat.eqb y) ls then Some p else None
           | None => None
           end.

Definition owns (pl : bool) (ls : list nat) (p : nat) : option nat -> option nat :=
  fun t => match t with
           | Some y => if existsb (Nat.eqb y) ls then Some p else None
           | None => if pl then Some p else None
           end.

Definition shift (o : option nat -> option nat) : option nat -> option nat :=
  fun t => option_map (fun p => p + 1) (o t).

Lemma frame_refl n r g : frame n r g g.
Proof. intros y _ _. reflexivity. Qed.

Lemma frame_trans n n1 r g g1 g2 : n <= n1 -> frame n r g g1 -> frame n1 r g1 g2 -> frame n r g g2.
Proof. intros L H1 H2 y Hy Hr. rewrite H2, H1; auto; lia. Qed.

Lemma frame_upd n r g y v : n <= y \/ r = Some y -> frame n r g (upd A g y v).
Proof.
  intros H z Hz Hr. unfold upd. destruct (Nat.eqb_spec z y) as [->|N]; [|reflexivity].
  destruct H as [H| H]; [lia|congruence].
Qed.

Lemma frame_le n n1 r g g' : n <= n1 -> frame n1 r g g' -> frame n r g g'.
Proof. intros L H y Hy Hr. apply H; auto; lia. Qed.

Lemma quiet_refl x : quiet x x.
Proof. intros H; exact H. Qed.

Lemma quiet_trans x y z : quiet x y -> quiet y z -> quiet x z.
Proof. unfold quiet; tauto. Qed.

Lemma vof_update ov v1 old :
  vof ov (vof v1 old) = vof (match ov with Some _ => ov | None => v1 end) old.
Proof. destruct ov; reflexivity. Qed.

Lemma update_none cm : update_empty A cm None = cm.
Proof. destruct cm as [[v|]|t [v|]|t [v|]|v|v]; reflexivity. Qed.

(** Change of the entry point: [c1] comes after [c0], with completion value
    [v1] so far. *)
Lemma post_shift bs cs d r n n' ob oc pe last c0 n1 n1' last1 c1 v1 :
  n <= n1 -> n1' <= n' ->
  stk A c1 = stk A c0 -> env A c1 = env A c0 -> retv A c1 = retv A c0 ->
  frame n r (regs A c0) (regs A c1) -> quiet (er A c0) (er A c1) ->
  (forall y, r = Some y -> regs A c1 y = vof v1 (regs A c0 y)) ->
  (last = true -> last1 = true) ->
  forall w cm c, Post bs cs d r n1 n1' ob oc pe last1 c1 w cm c ->
  Post bs cs d r n n' ob oc pe last c0 w (update_empty A cm v1) c.
Proof.
  intros L L' Es Ee Er F Q Hv Hl w cm c H.
  assert (HA : forall p ov, arrive r n1 p ov c1 w c ->
            arrive r n p (match ov with Some _ => ov | None => v1 end) c0 w c).
  { intros p ov (g' & x' & -> & F' & Q' & V'). exists g', x'. rewrite Es, Ee, Er.
    repeat split; auto.
    - eapply frame_trans; eauto.
    - eapply quiet_trans; eauto.
    - intros y Hy. rewrite (V' y Hy), (Hv y Hy), vof_update. reflexivity. }
  assert (HLv : forall js t ov, leave d r n1 n1' js t ov c1 w c ->
            leave d r n n' js t (match ov with Some _ => ov | None => v1 end) c0 w c).
  { intros js t ov (j & p & src & g' & x' & Hj & -> & Hc & F' & Q' & V').
    exists j, p, src, g', x'. rewrite Es, Ee, Er.
    repeat split; auto.
    - eapply frame_trans; eauto.
    - eapply quiet_trans; eauto.
    - unfold carries in *. destruct r as [y|]; [|exact V'].
      destruct V' as (z & Hz & Hr & E). exists z. repeat split; [exact Hz|lia|].
      rewrite E, (Hv y eq_refl), vof_update. reflexivity. }
  destruct cm as [ov|t ov|t ov|v|e]; cbn in *.
  - auto.
  - destruct (ob t); auto.
  - destruct (oc t); auto.
  - destruct H as (g' & x' & -> & F' & Q'). exists g', x'. rewrite Es, Ee.
    repeat split; [eapply frame_trans; eauto|eapply quiet_trans; eauto].
  - destruct H as (g' & rt' & -> & F' & HR). exists g', rt'. rewrite Es, Ee, <- Er.
    repeat split; [eapply frame_trans; eauto|auto].
Qed.

Lemma target_mine t own_ js :
  target t (own_ :: js) =
  if match t with None => j_plain own_ | Some x => existsb (Nat.eqb x) (j_names own_) end
  then Some own_ else target t js.
Proof. destruct t; reflexivity. Qed.

Lemma jump_code_pop d src j p :
  j_dep j <= d -> at_code p (jump_code (d + 1) src j) ->
  nth_error code p = Some IPop /\ at_code (p + 1) (jump_code d src j).
Proof.
  intros L H. unfold jump_code in *. replace (d + 1 - j_dep j) with (S (d - j_dep j)) in H by lia.
  cbn [repeat app] in H. apply at_cons in H. exact H.
Qed.

Lemma target_dep t js j d : Forall (fun j => j_dep j <= d) js -> target t js = Some j -> j_dep j <= d.
Proof.
  intros F H. rewrite Forall_forall in F. apply F.
  destruct t; cbn in H; apply find_some in H; tauto.
Qed.

(** Reaching the destination of a jump. *)
Lemma leave_own d r n n' o js t ov c0 w c p :
  leave d r n n' (o :: js) t ov c0 w c ->
  j_dep o = d -> j_rv o = r -> nth_error code p = Some (IStub (j_lab o)) ->
  if match t with None => j_plain o | Some x => existsb (Nat.eqb x) (j_names o) end
  then reach c (arrive r n (p + 1) ov c0 w)
  else leave d r n n' js t ov c0 w c.
Proof.
  intros (j & pc & src & g' & x' & Hj & -> & Hc & F & Q & C) Hd Hr Hp.
  rewrite target_mine in Hj.
  destruct (match t with None => j_plain o | Some x => existsb (Nat.eqb x) (j_names o) end).
  2: { exists j, pc, src, g', x'. auto 10. }
  injection Hj as <-. unfold jump_code in Hc. rewrite Hd, Nat.sub_diag in Hc. cbn [repeat app] in Hc.
  rewrite Hr in Hc.
  assert (HJ : forall pc g', nth_error code pc = Some (IJump (j_lab o)) ->
     frame n r (regs A c0) g' -> (forall y, r = Some y -> g' y = vof ov (regs A c0 y)) ->
     reach (K (At A pc) (stk A c0) g' (env A c0) (retv A c0) x' w) (arrive r n (p + 1) ov c0 w)).
  { intros pc' h Hpc Fh Vh. apply reach_step. unfold step. cbn [md]. rewrite Hpc.
    cbn [exec_instr]. unfold jump_to. rewrite (find_label_at code Hnodup _ _ Hp).
    apply reach_step. unfold step, goto. cbn [md stk regs env retv er wd]. rewrite Hp.
    apply reach_now. exists h, x'. cbn. auto. }
  unfold carries in C. destruct r as [y|].
  - destruct C as (z & -> & Hz & E). cbn [dup_to] in Hc.
    destruct (Nat.eqb_spec z y) as [Ez|N]; cbn [app] in Hc.
    + apply at_cons in Hc. apply HJ; [apply Hc|exact F|]. intros y0 [= <-]. rewrite <- Ez at 1. exact E.
    + apply at_cons in Hc. destruct Hc as [H1 H2]. apply at_cons in H2.
      apply reach_step. unfold step. cbn [md]. rewrite H1. cbn [exec_instr]. unfold goto, set_reg.
      cbn [md stk regs env retv er wd]. apply HJ; [apply H2| |].
      * intros a Ha Hay. unfold upd. destruct (Nat.eqb_spec a y) as [->|]; [congruence|]. apply F; auto.
      * intros y0 [= <-]. unfold upd. rewrite Nat.eqb_refl. exact E.
  - subst src. cbn [dup_to app] in Hc. apply at_cons in Hc. apply HJ; [apply Hc|exact F|discriminate].
Qed.

(** The jumps that end at the statement itself. *)
Lemma post_land_brk o bs cs d r n n' oc pe last c0 p :
  j_dep o = d -> j_rv o = r -> nth_error code p = Some (IStub (j_lab o)) ->
  forall w cm c, Post (o :: bs) cs d r n n' nobody oc pe last c0 w cm c ->
  reach c (Post bs cs d r n n' (owns (j_plain o) (j_names o) (p + 1)) oc pe last c0 w cm).
Proof.
  intros Hd Hr Hp w cm c H. destruct cm as [ov|t ov|t ov|v|e]; cbn in *; try (apply reach_now; exact H).
  pose proof (leave_own _ _ _ _ _ _ _ _ _ _ _ _ H Hd Hr Hp) as HO.
  destruct t as [y|]; cbn [Post owns] in *.
  - destruct (existsb (Nat.eqb y) (j_names o)); [exact HO|apply reach_now; exact HO].
  - destruct (j_plain o); [exact HO|apply reach_now; exact HO].
Qed.

Lemma post_land_con o bs cs d r n n' ob pe last c0 p :
  j_dep o = d -> j_rv o = r -> nth_error code p = Some (IStub (j_lab o)) ->
  forall w cm c, Post bs (o :: cs) d r n n' ob nobody pe last c0 w cm c ->
  reach c (Post bs cs d r n n' ob (owns (j_plain o) (j_names o) (p + 1)) pe last c0 w cm).
Proof.
  intros Hd Hr Hp w cm c H. destruct cm as [ov|t ov|t ov|v|e]; cbn in *; try (apply reach_now; exact H).
  pose proof (leave_own _ _ _ _ _ _ _ _ _ _ _ _ H Hd Hr Hp) as HO.
  destruct t as [y|]; cbn [Post owns] in *.
  - destruct (existsb (Nat.eqb y) (j_names o)); [exact HO|apply reach_now; exact HO].
  - destruct (j_plain o); [exact HO|apply reach_now; exact HO].
Qed.

(** The normal end passes over a label. *)
Lemma post_pass bs cs d r n n' ob oc pe last c0 l :
  nth_error code pe = Some (IStub l) ->
  forall w cm c, Post bs cs d r n n' ob oc pe last c0 w cm c ->
  reach c (Post bs cs d r n n' ob oc (pe + 1) last c0 w cm).
Proof.
  intros Hp w cm c H. destruct cm as [ov|t ov|t ov|v|e]; cbn in *; try (apply reach_now; exact H).
  destruct H as (g' & x' & -> & F & Q & Hv). apply reach_step. unfold step. cbn [md]. rewrite Hp.
  apply reach_now. exists g', x'. cbn. auto.
Qed.

(** Leaving a scope. *)
Lemma post_unscope bs cs d r n n' ob oc pe last m st g y e rt x w0 :
  Forall (fun j => j_dep j <= d) bs -> Forall (fun j => j_dep j <= d) cs ->
  nth_error code pe = Some IPop ->
  (forall t p, ob t = Some p -> nth_error code p = Some IPop) ->
  (forall t p, oc t = Some p -> nth_error code p = Some IPop) ->
  forall w cm c,
  Post bs cs (d + 1) r n n' ob oc pe last (K m (SScope A :: st) g (y :: e) rt x w0) w cm c ->
  forall m' w0',
  reach c (Post bs cs d r n n' (shift ob) (shift oc) (pe + 1) last (K m' st g e rt x w0') w cm).
Proof.
  intros Fb Fc Hpe Hob Hoc w cm c H m' w0'.
  assert (HA : forall p ov, nth_error code p = Some IPop ->
            arrive r n p ov (K m (SScope A :: st) g (y :: e) rt x w0) w c ->
            reach c (arrive r n (p + 1) ov (K m' st g e rt x w0') w)).
  { intros p ov Hp (g' & x' & -> & F & Q & Hv). apply reach_step. unfold step. cbn [md]. rewrite Hp.
    apply reach_now. exists g', x'. cbn in *. auto. }
  assert (HL : forall js t ov, Forall (fun j => j_dep j <= d) js ->
            leave (d + 1) r n n' js t ov (K m (SScope A :: st) g (y :: e) rt x w0) w c ->
            reach c (leave d r n n' js t ov (K m' st g e rt x w0') w)).
  { intros js t ov Fj (j & p & src & g' & x' & Hj & -> & Hc & F & Q & C).
    apply jump_code_pop in Hc; [|eapply target_dep; eauto]. destruct Hc as [Hp Hc].
    apply reach_step. unfold step. cbn [md]. rewrite Hp.
    apply reach_now. exists j, (p + 1), src, g', x'. cbn in *. auto 10. }
  destruct cm as [ov|t ov|t ov|v|ev]; cbn in H |- *.
  - apply HA; auto.
  - unfold shift. destruct (ob t) as [p|] eqn:E; cbn; [apply HA; eauto|apply HL; auto].
  - unfold shift. destruct (oc t) as [p|] eqn:E; cbn; [apply HA; eauto|apply HL; auto].
  - destruct H as (g' & x' & -> & F & Q). apply reach_step. apply reach_now.
    exists g', x'. cbn in *. auto.
  - destruct H as (g' & rt' & -> & F & HR). apply reach_step. apply reach_now.
    exists g', rt'. cbn in *. auto.
Qed.

(** ** Operations of the world *)

Variable nc : bool.
Hypothesis Hsteady : q = true \/ steady A.
Hypothesis Hkeep : nc = false -> close_keeps A.
Hypothesis Hq : q = true -> nc = false -> close_never_throws A.

Definition eff (x : bool * V) (o : option (bool * V)) : bool * V :=
  match o with Some y => y | None => x end.

Lemma after_ok {B : Type} m st g e rt x w0 w (b : B) o f :
  after A (K m st g e rt x w0) (w, inl b, o) f = f (K m st g e rt (eff x o) w) b.
Proof. destruct o; reflexivity. Qed.

Lemma after_err {B : Type} m st g e rt x w0 w v o (f : config -> B -> config) :
  after A (K m st g e rt x w0) (w, inr v, o) f = K (Un A XErr) st g e rt (true, v) w.
Proof. reflexivity. Qed.

Lemma quiet_eff {B : Type} x (a : ans W V B) w b o :
  q = true \/ no_leak A a -> a = (w, inl b, o) -> quiet x (eff x o).
Proof.
  intros H -> C. destruct H as [H|H]; [left; exact H|].
  destruct o as [[f v]|]; cbn in *; [right; exact H|exact C].
Qed.

Ltac leak := destruct Hsteady as [? |(? & ? & ? & ? & ?)]; [left; assumption|right; auto].

Lemma sim_eval_step {R : Type} N p ev r st g e rt x w (thr : W -> V -> option (W * R)) f Q :
  nth_error code p = Some (IEval ev r) ->
  (forall w' v x', quiet x x' -> sim N (K (At A (p + 1)) st (upd A g r v) e rt x' w') (f w' v) Q) ->
  (forall w' v, sim N (K (Un A XErr) st g e rt (true, v) w') (thr w' v) Q) ->
  sim N (step A code (K (At A p) st g e rt x w)) (ok A (w_eval A ev e w) thr f) Q.
Proof.
  intros Hp Hok Herr. unfold step. cbn [md]. rewrite Hp. cbn [exec_instr env wd].
  destruct (w_eval A ev e w) as [[w' [v|v]] o] eqn:E; cbn [ok].
  - rewrite after_ok. apply Hok. eapply quiet_eff; [|exact E]. leak.
  - rewrite after_err. apply Herr.
Qed.

Lemma sim_eval {R : Type} N p ev r st g e rt x w (thr : W -> V -> option (W * R)) f Q :
  nth_error code p = Some (IEval ev r) ->
  (forall w' v x', quiet x x' -> sim N (K (At A (p + 1)) st (upd A g r v) e rt x' w') (f w' v) Q) ->
  (forall w' v, sim N (K (Un A XErr) st g e rt (true, v) w') (thr w' v) Q) ->
  sim N (K (At A p) st g e rt x w) (ok A (w_eval A ev e w) thr f) Q.
Proof. intros. apply sim_step. eapply sim_eval_step; eauto. Qed.

Lemma sim_bindop {R : Type} N p b r st g e rt x w (thr : W -> V -> option (W * R)) f Q :
  nth_error code p = Some (IBind b r) ->
  (forall w' u x', quiet x x' -> sim N (K (At A (p + 1)) st g e rt x' w') (f w' u) Q) ->
  (forall w' v, sim N (K (Un A XErr) st g e rt (true, v) w') (thr w' v) Q) ->
  sim N (K (At A p) st g e rt x w) (ok A (w_bind A b (g r) e w) thr f) Q.
Proof.
  intros Hp Hok Herr. apply sim_step. unfold step. cbn [md]. rewrite Hp. cbn [exec_instr env wd regs].
  destruct (w_bind A b (g r) e w) as [[w' [v|v]] o] eqn:E; cbn [ok].
  - rewrite after_ok. apply Hok. eapply quiet_eff; [|exact E]. leak.
  - rewrite after_err. apply Herr.
Qed.

Lemma sim_with {R : Type} N p d r st g e rt x w (thr : W -> V -> option (W * R)) f Q :
  nth_error code p = Some (IWith r d) ->
  (forall w' y x', quiet x x' ->
     sim N (K (At A (p + 1)) (SScope A :: st) g (y :: e) rt x' w') (f w' y) Q) ->
  (forall w' v, sim N (K (Un A XErr) st g e rt (true, v) w') (thr w' v) Q) ->
  sim N (K (At A p) st g e rt x w) (ok A (w_with A d (g r) e w) thr f) Q.
Proof.
  intros Hp Hok Herr. apply sim_step. unfold step. cbn [md]. rewrite Hp. cbn [exec_instr env wd regs].
  destruct (w_with A d (g r) e w) as [[w' [v|v]] o] eqn:E; cbn [ok].
  - rewrite after_ok. apply Hok. eapply quiet_eff; [|exact E]. leak.
  - rewrite after_err. apply Herr.
Qed.

Lemma sim_open {R : Type} N p cl r st g e rt x w (thr : W -> V -> option (W * R)) f Q :
  nth_error code p = Some (IIter cl r) ->
  (forall w' it x', quiet x x' ->
     sim N (K (At A (p + 1)) (SIter A cl it false :: st) g e rt x' w') (f w' it) Q) ->
  (forall w' v, sim N (K (Un A XErr) st g e rt (true, v) w') (thr w' v) Q) ->
  sim N (K (At A p) st g e rt x w) (ok A (w_open A cl (g r) w) thr f) Q.
Proof.
  intros Hp Hok Herr. apply sim_step. unfold step. cbn [md]. rewrite Hp. cbn [exec_instr env wd regs].
  destruct (w_open A cl (g r) w) as [[w' [v|v]] o] eqn:E; cbn [ok].
  - rewrite after_ok. apply Hok. eapply quiet_eff; [|exact E]. leak.
  - rewrite after_err. apply Herr.
Qed.

Lemma sim_next_step {R : Type} N p rd r cl it st g e rt x w (thr : W -> V -> option (W * R)) f Q :
  nth_error code p = Some (IStep rd r) ->
  (forall w' v x', quiet x x' ->
     sim N (K (At A (p + 1)) (SIter A cl it false :: st) (upd A (upd A g r v) rd (vbool A true)) e rt x' w')
         (f w' (Some v)) Q) ->
  (forall w' x', quiet x x' ->
     sim N (K (At A (p + 1)) (SIter A cl it true :: st)
              (upd A (upd A g r (undef A)) rd (vbool A false)) e rt x' w') (f w' None) Q) ->
  (forall w' v, sim N (K (Un A XErr) (SIter A cl it true :: st) g e rt (true, v) w') (thr w' v) Q) ->
  sim N (step A code (K (At A p) (SIter A cl it false :: st) g e rt x w)) (ok A (w_next A it w) thr f) Q.
Proof.
  intros Hp Hs Hn Herr. unfold step. cbn [md]. rewrite Hp. cbn [exec_instr env wd regs stk].
  destruct (w_next A it w) as [[w' [v|v]] o] eqn:E; cbn [ok].
  - assert (Qx : quiet x (eff x o)) by (eapply quiet_eff; [|exact E]; leak).
    destruct v as [v|].
    + specialize (Hs w' v _ Qx). destruct o; exact Hs.
    + specialize (Hn w' _ Qx). destruct o; exact Hn.
  - apply Herr.
Qed.

(** Rounds of a loop: [Inv] holds in front of the label the loop jumps back
    to. *)
Lemma rounds_sim {B : Type} N (turn : B -> W -> option (W * (B + completion)))
    (Inv : B -> W -> config -> Prop) (Q : W -> completion -> config -> Prop) :
  (forall b w c, Inv b w c -> live c) ->
  (forall b w c, Inv b w c ->
     sim N (step A code c) (turn b w)
       (fun w' r c' => match r with inl b' => Inv b' w' c' | inr cm => Q w' cm c' end)) ->
  forall n, n <= N -> forall b w c, Inv b w c -> sim n c (rounds A n turn b w) Q.
Proof.
  intros HL HT. induction n as [|n IH]; intros L b w c HI; cbn [rounds].
  - exact (HL _ _ _ HI).
  - specialize (HT b w c HI). destruct (turn b w) as [[w' [b'|cm]]|]; cbn [sim] in HT |- *.
    + assert (HR : reachp c (Inv b' w')) by (apply reachp_step; exact HT).
      destruct (rounds A n turn b' w') as [[w2 cm]|] eqn:E; cbn [sim].
      * eapply reach_bind; [apply reachp_reach; exact HR|]. intros c' HI'.
        specialize (IH ltac:(lia) b' w' c' HI'). rewrite E in IH. exact IH.
      * eapply late_reachp; [exact HR|]. intros c' HI'.
        specialize (IH ltac:(lia) b' w' c' HI'). rewrite E in IH. exact IH.
    + apply reach_step. exact HT.
    + apply (late_le (S n) (1 + N)); [lia|]. unfold late in *. rewrite run_add. exact HT.
Qed.

(** ** Closing an iterator *)

Lemma close_run it m st g e rt x w :
  calm x \/ fst x = true -> nc = false ->
  let '(w', cm) := iterator_close A true it (Normal A None) w in
  close A (K m st g e rt x w) it =
  match cm with
  | Thr _ v => (K m st g e rt (true, if fst x then snd x else v) w', true)
  | _ => (K m st g e rt x w', false)
  end /\ (match cm with Thr _ _ => q = false | _ => True end).
Proof.
  intros C Hn. unfold iterator_close, close. cbn [wd er].
  pose proof (Hkeep Hn it w) as HK. destruct (w_close A it w) as [[w' [u|v]] o] eqn:E; cbn.
  - subst o. split; [|exact I]. destruct x as [[|] y]; reflexivity.
  - destruct q eqn:Eq.
    + exfalso. specialize (Hq eq_refl Hn it w). rewrite E in Hq. exact Hq.
    + split; [|reflexivity]. destruct x as [[|] y]; reflexivity.
Qed.

Lemma post_close bs cs d r n n' ob pe pe' last last' cl it m st g e rt x w0 :
  Forall (fun j => j_dep j <= d) bs -> Forall (fun j => j_dep j <= d) cs ->
  (cl = true -> calm x /\ nc = false) ->
  (forall t p, ob t = Some p -> nth_error code p = Some IPop) ->
  forall w cm c,
  Post bs cs (d + 1) r n n' ob nobody pe last (K m (SIter A cl it false :: st) g e rt x w0) w cm c ->
  match cm with Normal _ _ => False | _ => True end ->
  (last' = true -> last = true /\ (cl = false \/ q = true \/ match cm with Ret _ _ => False | _ => True end)) ->
  forall m' w0',
  let '(w', cm') := iterator_close A cl it cm w in
  reach c (Post bs cs d r n n' (shift ob) nobody pe' last' (K m' st g e rt x w0') w' cm').
Proof.
  intros Fb Fc Hcl Hob w cm c H NN Hl m' w0'.
  assert (JP : forall js t p j src, Forall (fun j => j_dep j <= d) js -> target t js = Some j ->
     at_code p (jump_code (d + 1) src j) ->
     nth_error code p = Some IPop /\ at_code (p + 1) (jump_code d src j)).
  { intros js t p j src Fj Hj Hc. apply jump_code_pop; [eapply target_dep; eauto|exact Hc]. }
  destruct cl.
  2: { cbn [iterator_close].
    destruct cm as [ov|t ov|t ov|v|ev]; [destruct NN| | | |]; cbn [Post nobody] in H |- *.
    - unfold shift. destruct (ob t) as [p|] eqn:E; cbn [option_map].
      + destruct H as (g' & x' & -> & F & Q & Hv). apply reach_step. unfold step. cbn [md].
        rewrite (Hob _ _ E). apply reach_now. exists g', x'. cbn in *. auto.
      + destruct H as (j & p & src & g' & x' & Hj & -> & Hc & F & Q & C).
        destruct (JP _ _ _ _ _ Fb Hj Hc) as [Hp Hc'].
        apply reach_step. unfold step. cbn [md]. rewrite Hp. apply reach_now.
        exists j, (p + 1), src, g', x'. cbn in *. auto 10.
    - destruct H as (j & p & src & g' & x' & Hj & -> & Hc & F & Q & C).
      destruct (JP _ _ _ _ _ Fc Hj Hc) as [Hp Hc'].
      apply reach_step. unfold step. cbn [md]. rewrite Hp. apply reach_now.
      exists j, (p + 1), src, g', x'. cbn in *. auto 10.
    - destruct H as (g' & x' & -> & F & Q). apply reach_step, reach_now. exists g', x'. cbn in *. auto.
    - destruct H as (g' & rt' & -> & F & HR). apply reach_step, reach_now. exists g', rt'. cbn in *.
      repeat split; auto. intros L. apply HR, Hl, L. }
  destruct (Hcl eq_refl) as [Cx Hn].
  assert (POP : forall p g' x', nth_error code p = Some IPop -> frame n r g g' -> calm x' ->
     let '(w', cm0) := iterator_close A true it (Normal A None) w in
     step A code (K (At A p) (SIter A true it false :: st) g' e rt x' w) =
     match cm0 with
     | Thr _ v => K (Un A XErr) st g' e rt (true, v) w'
     | _ => K (At A (p + 1)) st g' e rt x' w'
     end).
  { intros p g' x' Hp F C.
    pose proof (close_run it (At A p) st g' e rt x' w (or_introl C) Hn) as HC.
    destruct (iterator_close A true it (Normal A None) w) as [w' cm0].
    destruct HC as [HC HD]. unfold step. cbn [md]. rewrite Hp. cbn [exec_instr pop_state stk deinit set_stk md regs env retv er wd].
    unfold pop_state. cbn [stk]. unfold deinit, set_stk. cbn [md regs env retv er wd].
    rewrite HC. destruct cm0; try reflexivity.
    destruct C as [C|C]; [congruence|]. rewrite C. reflexivity. }
  assert (UNW : forall g' x' rt' X, (calm x' \/ fst x' = true) ->
     let '(w', cm0) := iterator_close A true it (Normal A None) w in
     step A code (K (Un A X) (SIter A true it false :: st) g' e rt' x' w) =
     match cm0 with
     | Thr _ v => K (Un A XErr) st g' e rt' (true, if fst x' then snd x' else v) w'
     | _ => K (Un A X) st g' e rt' x' w'
     end).
  { intros g' x' rt' X C.
    pose proof (close_run it (Un A X) st g' e rt' x' w C Hn) as HC.
    destruct (iterator_close A true it (Normal A None) w) as [w' cm0].
    destruct HC as [HC HD]. unfold step. cbn [md]. unfold unwind. cbn [stk].
    unfold deinit, set_stk. cbn [md regs env retv er wd]. rewrite HC.
    destruct cm0; reflexivity. }
  assert (IC : iterator_close A true it cm w =
     let '(w', cm0) := iterator_close A true it (Normal A None) w in
     (w', match cm with Thr _ v => Thr A v | _ => match cm0 with Thr _ v => Thr A v | _ => cm end end)).
  { unfold iterator_close. destruct (w_close A it w) as [[w' [u|v]] o]; destruct cm; reflexivity. }
  assert (QF : match snd (iterator_close A true it (Normal A None) w) with Thr _ _ => q = false | _ => True end).
  { pose proof (close_run it m st g e rt x w (or_introl Cx) Hn) as HC.
    destruct (iterator_close A true it (Normal A None) w) as [w' cm0]. apply HC. }
  rewrite IC. clear IC.
  destruct (iterator_close A true it (Normal A None) w) as [w' cm0] eqn:EC. cbn [snd] in QF.
  assert (GO : forall p g' x' P, nth_error code p = Some IPop -> frame n r g g' -> quiet x x' ->
     (match cm0 with Thr _ v => True | _ => reach (K (At A (p + 1)) st g' e rt x' w') P end) ->
     reach (K (At A p) (SIter A true it false :: st) g' e rt x' w)
       (match cm0 with
        | Thr _ v => Post bs cs d r n n' (shift ob) nobody pe' last' (K m' st g e rt x w0') w' (Thr A v)
        | _ => P
        end)).
  { intros p g' x' P Hp F Qx HP. apply reach_step. rewrite (POP p g' x' Hp F (Qx Cx)).
    destruct cm0; try exact HP. apply reach_now. exists g', rt. cbn. auto. }
  destruct cm as [ov|t ov|t ov|v|ev]; [destruct NN| | | |]; cbn [Post nobody] in H.
  - destruct (ob t) as [p|] eqn:E.
    + destruct H as (g' & x' & -> & F & Q & Hv). cbn [stk env retv regs er] in *.
      specialize (GO p g' x' (Post bs cs d r n n' (shift ob) nobody pe' last' (K m' st g e rt x w0') w' (Brk A t ov))
                     (Hob _ _ E) F Q).
      destruct cm0; apply GO; try exact I;
        (apply reach_now; cbn [Post]; unfold shift; rewrite E; exists g', x'; cbn; auto).
    + destruct H as (j & p & src & g' & x' & Hj & -> & Hc & F & Q & C). cbn [stk env retv regs er] in *.
      destruct (JP _ _ _ _ _ Fb Hj Hc) as [Hp Hc'].
      specialize (GO p g' x' (Post bs cs d r n n' (shift ob) nobody pe' last' (K m' st g e rt x w0') w' (Brk A t ov))
                     Hp F Q).
      destruct cm0; apply GO; try exact I;
        (apply reach_now; cbn [Post]; unfold shift; rewrite E; exists j, (p + 1), src, g', x'; cbn; auto 10).
  - destruct H as (j & p & src & g' & x' & Hj & -> & Hc & F & Q & C). cbn [stk env retv regs er] in *.
    destruct (JP _ _ _ _ _ Fc Hj Hc) as [Hp Hc'].
    specialize (GO p g' x' (Post bs cs d r n n' (shift ob) nobody pe' last' (K m' st g e rt x w0') w' (Cont A t ov))
                   Hp F Q).
    destruct cm0; apply GO; try exact I;
      (apply reach_now; exists j, (p + 1), src, g', x'; cbn; auto 10).
  - destruct H as (g' & x' & -> & F & Q). cbn [stk env retv regs er] in *. apply reach_step.
    rewrite (UNW g' x' v XRet (or_introl (Q Cx))).
    destruct cm0; apply reach_now;
      try (exists g', x'; cbn; auto; fail).
    destruct (Q Cx) as [C|C]; [congruence|]. rewrite C.
    exists g', v. cbn. repeat split; auto. intros L. destruct (Hl L) as [_ [L'|[L'|[]]]]; congruence.
  - destruct H as (g' & rt' & -> & F & HR). cbn [stk env retv regs er] in *. apply reach_step.
    rewrite (UNW g' (true, ev) rt' XErr (or_intror eq_refl)). cbn [fst snd].
    destruct cm0; apply reach_now; exists g', rt'; cbn; repeat split; auto;
      intros L; apply HR, Hl, L.
Qed.

(** ** Try statements *)

(** The completion that waits while a finally block runs, as the try state
    keeps it. *)
Definition pending (bs cs : list jump) (d : nat) (r : option nat) (n nb n' : nat)
    (ob : option nat -> bool) (last : bool) (c0 : config) (cm : completion)
    (op : nextop) (next : option nat) (err : V) (g' : nat -> V) (rt' : V) (x' : bool * V) : Prop :=
  frame n r (regs A c0) g' /\
  let here ov := op = ONormal /\ next = None /\ rt' = retv A c0 /\ quiet (er A c0) x'
                 /\ (forall y, r = Some y -> g' y = vof ov (regs A c0 y)) in
  let away js t ov := op = ONormal /\ rt' = retv A c0 /\ quiet (er A c0) x' /\
        exists j p src, target t js = Some j /\ next = Some p /\ at_code p (jump_code d src j)
          /\ carries r nb n' src ov (regs A c0) g' in
  match cm with
  | Normal _ ov => here ov
  | Brk _ t ov => if ob t then here ov else away bs t ov
  | Cont _ t ov => away cs t ov
  | Ret _ v => op = OReturn /\ rt' = v /\ quiet (er A c0) x'
  | Thr _ e => op = OThrow /\ err = e /\ (last = true -> rt' = retv A c0)
  end.

Definition held (o : option nat -> option nat) (t : option nat) : bool :=
  match o t with Some _ => true | None => false end.

(** The protected block or the catch clause ends: on to the finally block. *)
Lemma try_pend bs cs d r n n' ob pe last ph cip fip err0 m st g e rt x w0 lf lb :
  ph = PTry \/ ph = PCatch ->
  Forall (fun j => j_dep j <= d) bs -> Forall (fun j => j_dep j <= d) cs ->
  nth_error code fip = Some (IStub lf) -> nth_error code (fip + 1) = Some (IStub lb) ->
  (nth_error code pe = Some (IJump lf) \/ pe = fip) ->
  (forall t p, ob t = Some p -> p = fip + 2) ->
  forall w cm c,
  Post bs cs (d + 1) r n n' ob nobody pe last
    (K m (STry A ph ONormal None cip fip err0 :: st) g e rt x w0) w cm c ->
  (ph = PTry -> match cm with Thr _ _ => False | _ => True end) ->
  forall m' w0',
  reach c (fun c' => exists op next err g' rt' x',
    c' = K (At A (fip + 2)) (STry A ph op next cip fip err :: st) g' e rt' x' w
    /\ pending bs cs d r n n n' (held ob) last (K m' st g e rt x w0') cm op next err g' rt' x').
Proof.
  intros Hph Fb Fc Hf Hb Hpe Hob w cm c H NT m' w0'.
  assert (PASS : forall s g' e rt' x' w (P : config -> Prop), P (K (At A (fip + 2)) s g' e rt' x' w) ->
             reach (K (At A fip) s g' e rt' x' w) P).
  { intros. apply reach_step. unfold step. cbn [md]. rewrite Hf. apply reach_step. unfold step.
    cbn [md exec_instr goto]. rewrite Hb. apply reach_now. cbn. unfold goto; cbn.
    replace (fip + 1 + 1) with (fip + 2) by lia. assumption. }
  assert (POP : forall p g' rt' x' (P : config -> Prop), nth_error code p = Some IPop ->
     P (K (At A (fip + 2)) (STry A ph ONormal (Some (p + 1)) cip fip err0 :: st) g' e rt' x' w) ->
     reach (K (At A p) (STry A ph ONormal None cip fip err0 :: st) g' e rt' x' w) P).
  { intros p g' rt' x' P Hp HP. apply reach_step. unfold step. cbn [md]. rewrite Hp.
    cbn [exec_instr]. unfold pop_state. cbn [stk].
    destruct Hph as [-> | ->]; apply PASS; exact HP. }
  assert (JP : forall js t p j src, Forall (fun j => j_dep j <= d) js -> target t js = Some j ->
     at_code p (jump_code (d + 1) src j) ->
     nth_error code p = Some IPop /\ at_code (p + 1) (jump_code d src j)).
  { intros js t p j src Fj Hj Hc. apply jump_code_pop; [eapply target_dep; eauto|exact Hc]. }
  unfold pending.
  destruct cm as [ov|t ov|t ov|v|ev]; cbn [Post nobody] in H.
  - destruct H as (g' & x' & -> & F & Q & Hv). cbn [stk env retv regs er] in *.
    assert (G : reach (K (At A fip) (STry A ph ONormal None cip fip err0 :: st) g' e rt x' w)
      (fun c' => exists op next err g' rt' x',
        c' = K (At A (fip + 2)) (STry A ph op next cip fip err :: st) g' e rt' x' w /\
        frame n r g g' /\ op = ONormal /\ next = None /\ rt' = rt /\ quiet x x'
         /\ (forall y, r = Some y -> g' y = vof ov (g y)))).
    { apply PASS. exists ONormal, None, err0, g', rt, x'. auto 10. }
    destruct Hpe as [Hpe| ->]; [|exact G].
    apply reach_step. unfold step. cbn [md]. rewrite Hpe. cbn [exec_instr]. unfold jump_to.
    rewrite (find_label_at code Hnodup _ _ Hf). exact G.
  - unfold held. destruct (ob t) as [p|] eqn:E.
    + destruct H as (g' & x' & -> & F & Q & Hv). cbn [stk env retv regs er] in *.
      rewrite (Hob _ _ E). apply reach_now. exists ONormal, None, err0, g', rt, x'. auto 10.
    + destruct H as (j & p & src & g' & x' & Hj & -> & Hc & F & Q & C). cbn [stk env retv regs er] in *.
      destruct (JP _ _ _ _ _ Fb Hj Hc) as [Hp Hc']. apply POP; [exact Hp|].
      exists ONormal, (Some (p + 1)), err0, g', rt, x'. repeat split; auto. eauto 10.
  - destruct H as (j & p & src & g' & x' & Hj & -> & Hc & F & Q & C). cbn [stk env retv regs er] in *.
    destruct (JP _ _ _ _ _ Fc Hj Hc) as [Hp Hc']. apply POP; [exact Hp|].
    exists ONormal, (Some (p + 1)), err0, g', rt, x'. repeat split; auto. eauto 10.
  - destruct H as (g' & x' & -> & F & Q). cbn [stk env retv regs er] in *.
    apply reach_step. unfold step, unwind. cbn [md stk].
    destruct Hph as [-> | ->]; apply PASS; exists OReturn, None, err0, g', v, x'; auto 10.
  - destruct H as (g' & rt' & -> & F & HR). cbn [stk env retv regs er] in *.
    destruct Hph as [-> | ->]; [destruct (NT eq_refl)|].
    apply reach_step. unfold step, unwind. cbn [md stk]. apply PASS.
    exists OThrow, None, ev, g', rt', (true, ev). auto 10.
Qed.

Lemma try_thrown bs cs d r n n' ob pe last cip fip err0 m st g e rt x w0 w v c :
  Post bs cs d r n n' ob nobody pe last
    (K m (STry A PTry ONormal None cip fip err0 :: st) g e rt x w0) w (Thr A v) c ->
  reach c (fun c' => exists g' rt', c' = K (At A cip) (STry A PTry OThrow None cip fip v :: st) g' e rt' (true, v) w
     /\ frame n r g g' /\ (last = true -> rt' = rt)).
Proof.
  intros (g' & rt' & -> & F & HR). cbn [stk env retv regs er] in *.
  apply reach_step. unfold step, unwind. cbn [md stk]. apply reach_now.
  exists g', rt'. cbn. auto.
Qed.

(** The end of a try statement. *)
Lemma try_finish bs cs d r n nb nb' n' ob pE last ph op next cip fip err st g' e rt' x' le c0 w cm :
  nth_error code pE = Some ITryEnd -> nth_error code (pE + 1) = Some (IStub le) ->
  nth_error code (pE + 2) = Some IPop ->
  (forall t p, ob t = Some p -> p = pE + 3) ->
  stk A c0 = st -> env A c0 = e -> n <= nb -> nb' <= n' ->
  pending bs cs d r n nb nb' (held ob) last c0 cm op next err g' rt' x' ->
  reach (K (At A pE) (STry A ph op next cip fip err :: st) g' e rt' x' w)
    (Post bs cs d r n n' ob nobody (pE + 3) last c0 w cm).
Proof.
  intros H1 H2 H3 Hob Es Ee Ln Ln' [F P]. cbv zeta in P.
  assert (GO : forall Q, reach (pop_state A (K (At A (pE + 2)) (STry A PEnd op next cip fip err :: st) g' e rt' x' w) (pE + 2)) Q ->
     reach (K (At A pE) (STry A ph op next cip fip err :: st) g' e rt' x' w) Q).
  { intros Q HQ. apply reach_step. unfold step. cbn [md]. rewrite H1. cbn [exec_instr stk].
    apply reach_step. unfold step, goto, set_stk. cbn [md regs env retv er wd stk]. rewrite H2.
    apply reach_step. unfold step, exec_instr, goto, set_stk. cbn [md regs env retv er wd stk].
    replace (pE + 1 + 1) with (pE + 2) by lia. rewrite H3. exact HQ. }
  apply GO. unfold pop_state. cbn [stk]. clear GO.
  assert (HERE : forall ov p, (op = ONormal /\ next = None /\ rt' = retv A c0 /\ quiet (er A c0) x'
                 /\ (forall y, r = Some y -> g' y = vof ov (regs A c0 y))) -> p = pE + 3 ->
      reach (match op with
             | ONormal => goto A (set_stk A (K (At A (pE + 2)) (STry A PEnd op next cip fip err :: st) g' e rt' x' w) st)
                               (At A (match next with Some ip => ip | None => pE + 2 + 1 end))
             | OThrow => goto A (set_er A (set_stk A (K (At A (pE + 2)) (STry A PEnd op next cip fip err :: st) g' e rt' x' w) st) (true, err)) (Un A XErr)
             | OReturn => goto A (set_stk A (K (At A (pE + 2)) (STry A PEnd op next cip fip err :: st) g' e rt' x' w) st) (Un A XRet)
             end) (arrive r n p ov c0 w)).
  { intros ov p (-> & -> & -> & Q & Hv) ->. apply reach_now. exists g', x'. unfold goto, set_stk.
    cbn [md regs env retv er wd stk]. rewrite Es, Ee. replace (pE + 2 + 1) with (pE + 3) by lia. auto. }
  assert (AWAY : forall js t ov, (op = ONormal /\ rt' = retv A c0 /\ quiet (er A c0) x' /\
        exists j p src, target t js = Some j /\ next = Some p /\ at_code p (jump_code d src j)
          /\ carries r nb nb' src ov (regs A c0) g') ->
      reach (match op with
             | ONormal => goto A (set_stk A (K (At A (pE + 2)) (STry A PEnd op next cip fip err :: st) g' e rt' x' w) st)
                               (At A (match next with Some ip => ip | None => pE + 2 + 1 end))
             | OThrow => goto A (set_er A (set_stk A (K (At A (pE + 2)) (STry A PEnd op next cip fip err :: st) g' e rt' x' w) st) (true, err)) (Un A XErr)
             | OReturn => goto A (set_stk A (K (At A (pE + 2)) (STry A PEnd op next cip fip err :: st) g' e rt' x' w) st) (Un A XRet)
             end) (leave d r n n' js t ov c0 w)).
  { intros js t ov (-> & -> & Q & j & p & src & Hj & -> & Hc & C). apply reach_now.
    exists j, p, src, g', x'. unfold goto, set_stk. cbn [md regs env retv er wd stk].
    rewrite Es, Ee.
    repeat split; auto. unfold carries in *. destruct r as [y|]; [|exact C].
    destruct C as (z & Hz & Hr & E). exists z. repeat split; auto. lia. }
  destruct cm as [ov|t ov|t ov|v|ev]; cbn [Post nobody].
  - apply HERE; auto.
  - unfold held in P. destruct (ob t) as [p|] eqn:E; [apply HERE; eauto|apply AWAY; exact P].
  - apply AWAY; exact P.
  - destruct P as (-> & -> & Q). apply reach_now. exists g', x'. unfold goto, set_stk.
    cbn [md regs env retv er wd stk]. rewrite Es, Ee. auto.
  - destruct P as (-> & -> & HR). apply reach_now. exists g', rt'. unfold goto, set_stk, set_er.
    cbn [md regs env retv er wd stk]. rewrite Es, Ee. auto.
Qed.

(** The finally block ran between: nothing that waits is lost. *)
Lemma pending_later bs cs d r n nb n' ob last c0 cm op next err g' g1 rt' x' x1 fr :
  pending bs cs d r n nb n' ob last c0 cm op next err g' rt' x' ->
  n <= fr -> fr < nb -> nb <= n' -> (forall y, r = Some y -> y < n) ->
  (forall z, z < n' -> z <> fr -> g1 z = g' z) -> quiet x' x1 ->
  pending bs cs d r n nb n' ob last c0 cm op next err g1 rt' x1.
Proof.
  intros [F P] L1 L2 L3 Hy G Q. split.
  { intros z Hz Hr. rewrite G by lia. apply F; auto. }
  cbv zeta in *.
  assert (HERE : forall ov, op = ONormal /\ next = None /\ rt' = retv A c0 /\ quiet (er A c0) x'
                 /\ (forall y, r = Some y -> g' y = vof ov (regs A c0 y)) ->
                 op = ONormal /\ next = None /\ rt' = retv A c0 /\ quiet (er A c0) x1
                 /\ (forall y, r = Some y -> g1 y = vof ov (regs A c0 y))).
  { intros ov (? & ? & ? & Q' & HV). repeat split; auto; [eapply quiet_trans; eauto|].
    intros y E. specialize (Hy y E). rewrite G by lia. auto. }
  assert (AWAY : forall js t ov, (op = ONormal /\ rt' = retv A c0 /\ quiet (er A c0) x' /\
        exists j p src, target t js = Some j /\ next = Some p /\ at_code p (jump_code d src j)
          /\ carries r nb n' src ov (regs A c0) g') ->
        op = ONormal /\ rt' = retv A c0 /\ quiet (er A c0) x1 /\
        exists j p src, target t js = Some j /\ next = Some p /\ at_code p (jump_code d src j)
          /\ carries r nb n' src ov (regs A c0) g1).
  { intros js t ov (? & ? & Q' & j & p & src & ? & ? & ? & C). repeat split; auto; [eapply quiet_trans; eauto|].
    exists j, p, src. repeat split; auto. unfold carries in *. destruct r as [y|]; [|exact C].
    destruct C as (z & Hz & Hr & E). exists z. repeat split; auto.
    specialize (Hy y eq_refl). rewrite G by lia. exact E. }
  destruct cm as [ov|t ov|t ov|v|ev]; auto.
  - destruct (ob t); auto.
  - destruct P as (? & ? & ?). repeat split; auto. eapply quiet_trans; eauto.
Qed.

Lemma pending_frame bs cs d r n n1 nb n' ob last c0 cm op next err g' rt' x' :
  n <= n1 ->
  pending bs cs d r n1 nb n' ob last c0 cm op next err g' rt' x' ->
  pending bs cs d r n nb n' ob last c0 cm op next err g' rt' x'.
Proof. intros L [F P]. split; [eapply frame_le; eauto|exact P]. Qed.

(** ** More about outcomes *)

Lemma sim_post {R : Type} N c (r : option (W * R)) Q Q' :
  sim N c r Q -> (forall w cm c', Q w cm c' -> reach c' (Q' w cm)) -> sim N c r Q'.
Proof.
  destruct r as [[w cm]|]; cbn; intros H HQ; [|exact H]. eapply reach_bind; eauto.
Qed.

Lemma post_ext bs cs d r n n' ob oc pe last c0 ob' oc' :
  (forall t, ob t = ob' t) -> (forall t, oc t = oc' t) ->
  forall w cm c, Post bs cs d r n n' ob oc pe last c0 w cm c -> Post bs cs d r n n' ob' oc' pe last c0 w cm c.
Proof. intros H1 H2 w cm c H. destruct cm; cbn in *; auto; rewrite <- ?H1, <- ?H2; exact H. Qed.

(** The same place seen from another start. *)
Lemma post_weak bs cs d r n n' ob oc pe last c0 n1 n1' last1 c1 :
  n <= n1 -> n1' <= n' ->
  stk A c1 = stk A c0 -> env A c1 = env A c0 -> retv A c1 = retv A c0 ->
  frame n r (regs A c0) (regs A c1) -> quiet (er A c0) (er A c1) ->
  (forall y, r = Some y -> regs A c1 y = regs A c0 y) ->
  (last = true -> last1 = true) ->
  forall w cm c, Post bs cs d r n1 n1' ob oc pe last1 c1 w cm c ->
  Post bs cs d r n n' ob oc pe last c0 w cm c.
Proof.
  intros. rewrite <- (update_none cm). eapply post_shift; eauto.
Qed.

Definition apart (ls : list nat) (bs : list jump) : Prop :=
  forall j x, In j bs -> existsb (Nat.eqb x) ls = true -> existsb (Nat.eqb x) (j_names j) = false.

Lemma apart_target ls bs x : apart ls bs -> existsb (Nat.eqb x) ls = true -> target (Some x) bs = None.
Proof.
  intros H Hx. cbn. destruct (find _ bs) as [j|] eqn:E; [|reflexivity].
  apply find_some in E. destruct E as [E1 E2]. rewrite (H j x E1 Hx) in E2. discriminate.
Qed.

(** Nothing jumps to the labels of a statement that does not take jumps. *)
Lemma post_own ls bs cs d r n n' ob oc pe p last c0 :
  apart ls bs -> (forall t, ob t = None) ->
  forall w cm c, Post bs cs d r n n' ob oc pe last c0 w cm c -> Post bs cs d r n n' (own ls p) oc pe last c0 w cm c.
Proof.
  intros HA HN w cm c H. destruct cm as [ov|t ov|t ov|v|e]; auto. cbn in *. rewrite HN in H.
  destruct t as [y|]; [|exact H]. cbn.
  destruct (existsb (Nat.eqb y) ls) eqn:E; [|exact H].
  destruct H as (j & ? & ? & ? & ? & Hj & _). rewrite (apart_target ls bs y HA E) in Hj. discriminate.
Qed.

(** The normal end jumps to a label. *)
Lemma post_jump bs cs d r n n' ob oc pe last c0 l p :
  nth_error code pe = Some (IJump l) -> nth_error code p = Some (IStub l) ->
  forall w cm c, Post bs cs d r n n' ob oc pe last c0 w cm c ->
  reach c (Post bs cs d r n n' ob oc (p + 1) last c0 w cm).
Proof.
  intros Hpe Hp w cm c H. destruct cm as [ov|t ov|t ov|v|e]; cbn in *; try (apply reach_now; exact H).
  destruct H as (g' & x' & -> & F & Q & Hv). apply reach_step. unfold step. cbn [md]. rewrite Hpe.
  cbn [exec_instr]. unfold jump_to. rewrite (find_label_at code Hnodup _ _ Hp).
  apply reach_step. unfold step, goto. cbn [md regs env retv er wd stk]. rewrite Hp. apply reach_now.
  exists g', x'. cbn. auto.
Qed.

(** ** Small steps *)

Lemma step_stub p l m : nth_error code p = Some (IStub l) -> m = At A p ->
  forall st g e rt x w, step A code (K m st g e rt x w) = K (At A (p + 1)) st g e rt x w.
Proof. intros H -> st g e rt x w. unfold step. cbn [md]. rewrite H. reflexivity. Qed.

Lemma step_jump p l p' : nth_error code p = Some (IJump l) -> nth_error code p' = Some (IStub l) ->
  forall st g e rt x w, step A code (K (At A p) st g e rt x w) = K (At A p') st g e rt x w.
Proof.
  intros H H' st g e rt x w. unfold step. cbn [md]. rewrite H. cbn [exec_instr]. unfold jump_to.
  rewrite (find_label_at code Hnodup _ _ H'). reflexivity.
Qed.

Lemma step_jumpt p rr l p' : nth_error code p = Some (IJumpT rr l) -> nth_error code p' = Some (IStub l) ->
  forall st g e rt x w, step A code (K (At A p) st g e rt x w) =
    K (At A (if truthy A (g rr) then p' else p + 1)) st g e rt x w.
Proof.
  intros H H' st g e rt x w. unfold step. cbn [md]. rewrite H. cbn [exec_instr regs]. unfold jump_to.
  rewrite (find_label_at code Hnodup _ _ H'). destruct (truthy A (g rr)); reflexivity.
Qed.

Lemma step_jumpf p rr l p' : nth_error code p = Some (IJumpF rr l) -> nth_error code p' = Some (IStub l) ->
  forall st g e rt x w, step A code (K (At A p) st g e rt x w) =
    K (At A (if truthy A (g rr) then p + 1 else p')) st g e rt x w.
Proof.
  intros H H' st g e rt x w. unfold step. cbn [md]. rewrite H. cbn [exec_instr regs]. unfold jump_to.
  rewrite (find_label_at code Hnodup _ _ H'). destruct (truthy A (g rr)); reflexivity.
Qed.

Lemma upd_same g r v : upd A g r v r = v.
Proof. unfold upd. rewrite Nat.eqb_refl. reflexivity. Qed.

Lemma upd_other g r v y : y <> r -> upd A g r v y = g y.
Proof. intros N. unfold upd. destruct (Nat.eqb_spec y r); [contradiction|reflexivity]. Qed.

Definition clr (r : option nat) (g : nat -> V) : nat -> V :=
  match r with Some y => upd A g y (undef A) | None => g end.

Lemma clr_frame n r g : frame n r g (clr r g).
Proof. destruct r as [y|]; cbn; [apply frame_upd; auto|apply frame_refl]. Qed.

Lemma clr_val r g y : r = Some y -> clr r g y = undef A.
Proof. intros ->. apply upd_same. Qed.

Lemma clr_other r g y : r <> Some y -> clr r g y = g y.
Proof. destruct r as [z|]; cbn; [|reflexivity]. intros N. apply upd_other. congruence. Qed.

Lemma sim_clear {R : Type} N p r st g e rt x w (res : option (W * R)) Q :
  at_code p (clear r) ->
  sim N (K (At A (p + length (clear r))) st (clr r g) e rt x w) res Q ->
  sim N (K (At A p) st g e rt x w) res Q.
Proof.
  intros H HS. destruct r as [y|]; cbn [clear length clr] in *.
  - apply at_cons in H. destruct H as [H _]. apply sim_step. unfold step. cbn [md]. rewrite H. exact HS.
  - rewrite Nat.add_0_r in HS. exact HS.
Qed.

(** ** Optional scopes *)

Definition sc (d : option nat) (st : list (state A)) : list (state A) :=
  match d with Some _ => SScope A :: st | None => st end.

Definition opened (d : option nat) (e e' : list nat) : Prop :=
  match d with Some _ => exists y, e' = y :: e | None => e' = e end.

Lemma sim_scope {R : Type} N p d st g e rt x w (f : W -> list nat -> option (W * R)) Q :
  at_code p (scope d) ->
  (forall w' e', opened d e e' -> sim N (K (At A (p + length (scope d))) (sc d st) g e' rt x w') (f w' e') Q) ->
  sim N (K (At A p) st g e rt x w) (let (w', e') := in_scope A d e w in f w' e') Q.
Proof.
  intros H HS. destruct d as [d|]; cbn [scope length sc in_scope opened] in *.
  - apply at_cons in H. destruct H as [H _]. apply sim_step. unfold step. cbn [md]. rewrite H.
    cbn [exec_instr env wd]. destruct (w_scope A d e w) as [w' y]. apply HS. eauto.
  - rewrite Nat.add_0_r in HS. apply HS. reflexivity.
Qed.

Lemma sim_nextscope {R : Type} N p d st g e e1 rt x w (f : W -> list nat -> option (W * R)) Q :
  opened d e e1 -> at_code p (next_scope d) ->
  (forall w' e', opened d e e' -> sim N (K (At A (p + length (next_scope d))) st g e' rt x w') (f w' e') Q) ->
  sim N (K (At A p) st g e1 rt x w) (let (w', e') := fresh_copy A d e1 w in f w' e') Q.
Proof.
  intros Ho H HS. destruct d as [d|]; cbn [next_scope length fresh_copy opened] in *.
  - destruct Ho as [y ->]. apply at_cons in H. destruct H as [H _]. apply sim_step. unfold step. cbn [md]. rewrite H.
    cbn [exec_instr env wd]. destruct (w_copy A y w) as [w' z]. apply HS. eauto.
  - rewrite Nat.add_0_r in HS. apply HS. exact Ho.
Qed.

Lemma opened_refl_none e e' : opened None e e' -> e' = e.
Proof. auto. Qed.

(** Leaving an optional scope. *)
Lemma post_unscope_opt dd bs cs d r n n' ob oc ob' oc' pe last m st g e e1 rt x w0 :
  opened dd e e1 ->
  Forall (fun j => j_dep j <= d) bs -> Forall (fun j => j_dep j <= d) cs ->
  at_code pe (unscope dd) ->
  (forall t p, ob t = Some p -> at_code p (unscope dd)) ->
  (forall t p, oc t = Some p -> at_code p (unscope dd)) ->
  (forall t, ob' t = option_map (fun p => p + one dd) (ob t)) ->
  (forall t, oc' t = option_map (fun p => p + one dd) (oc t)) ->
  forall w cm c,
  Post bs cs (d + one dd) r n n' ob oc pe last (K m (sc dd st) g e1 rt x w0) w cm c ->
  forall m' w0',
  reach c (Post bs cs d r n n' ob' oc' (pe + one dd) last (K m' st g e rt x w0') w cm).
Proof.
  intros Ho Fb Fc Hpe Hob Hoc Eb Ec w cm c H m' w0'. destruct dd as [dd|]; cbn [one opened sc unscope] in *.
  - destruct Ho as [y ->].
    eapply reach_bind.
    + eapply post_unscope with (m' := m') (w0' := w0') (ob := ob) (oc := oc) in H; eauto.
      * apply at_cons in Hpe. apply Hpe.
      * intros t p E. specialize (Hob t p E). apply at_cons in Hob. apply Hob.
      * intros t p E. specialize (Hoc t p E). apply at_cons in Hoc. apply Hoc.
    + intros c' H'. apply reach_now. eapply post_ext; [| |exact H'].
      * intros t. rewrite Eb. reflexivity.
      * intros t. rewrite Ec. reflexivity.
  - subst e1. rewrite !Nat.add_0_r in *. apply reach_now.
    apply (post_ext bs cs d r n n' ob oc) with (1 := fun t => eq_trans (match ob t as o return o = option_map (fun p => p + 0) o with Some p => f_equal Some (eq_sym (Nat.add_0_r p)) | None => eq_refl end) (eq_sym (Eb t)))
      (2 := fun t => eq_trans (match oc t as o return o = option_map (fun p => p + 0) o with Some p => f_equal Some (eq_sym (Nat.add_0_r p)) | None => eq_refl end) (eq_sym (Ec t))).
    eapply (post_weak bs cs d r n n' ob oc pe last _ n n' last); try exact H; cbn; auto using frame_refl, quiet_refl.
Qed.

Lemma throw_scope dd X st g e e1 rt x w P :
  opened dd e e1 -> reach (K (Un A X) st g e rt x w) P -> reach (K (Un A X) (sc dd st) g e1 rt x w) P.
Proof.
  intros Ho H. destruct dd as [dd|]; cbn in *.
  - destruct Ho as [y ->]. apply reach_step. exact H.
  - subst. exact H.
Qed.

Lemma post_throw bs cs d r n n' ob oc pe last m st g e rt x w0 w v g' :
  frame n r g g' ->
  Post bs cs d r n n' ob oc pe last (K m st g e rt x w0) w (Thr A v) (K (Un A XErr) st g' e rt (true, v) w).
Proof. intros F. exists g', rt. cbn. auto. Qed.

(** ** Bodies of loops *)

Lemma loop_again bs cs d r n n' ls pb pc pe last c1 w cm c :
  Post bs cs d r n n' (owns true ls pb) (owns true ls pc) pe last c1 w cm c ->
  pe = pc -> loop_continues A cm ls = true ->
  arrive r n pc (value_of A cm) c1 w c.
Proof.
  intros H -> L. destruct cm as [ov|t ov|t ov|v|e]; cbn in *; try discriminate.
  - exact H.
  - destruct t as [y|]; cbn in H; [rewrite L in H|]; exact H.
Qed.

Lemma loop_leave bs cs d r n n' ls pb pc pe last c1 w cm c pe' :
  Post bs cs d r n n' (owns true ls pb) (owns true ls pc) pe last c1 w cm c ->
  loop_continues A cm ls = false ->
  Post bs cs d r n n' (owns true ls pb) nobody pe' last c1 w cm c.
Proof.
  intros H L. destruct cm as [ov|t ov|t ov|v|e]; cbn in *; try discriminate; try exact H.
  destruct t as [y|]; cbn in *; [rewrite L in H; exact H|discriminate].
Qed.

Lemma post_breakable bs cs d r n n' ls pe last c0 w cm c :
  Post bs cs d r n n' (owns true ls pe) nobody pe last c0 w cm c ->
  cm <> Brk A None None ->
  Post bs cs d r n n' (own ls pe) nobody pe last c0 w (breakable A cm) c.
Proof.
  intros H NB. destruct cm as [ov|[y|] ov|t ov|v|e]; try exact H.
  cbn in H |- *. destruct ov as [v|]; [exact H|]. destruct (NB eq_refl).
Qed.

Lemma update_some_brk cm v : update_empty A cm (Some v) <> Brk A None None.
Proof. destruct cm as [ov|t [ov|]|t ov|v0|e]; discriminate. Qed.
(** ** The simulation *)

Definition mem (x : nat) (l : list nat) : bool := existsb (Nat.eqb x) l.

Record Wf (ls seen : list nat) (k : ctx) (n : nat) : Prop := {
  wf_ls : forall x, mem x ls = true -> mem x seen = true;
  wf_names : forall j x, In j (brk k) -> mem x (j_names j) = true -> mem x seen = true;
  wf_apart : apart ls (brk k);
  wf_rv : forall r, rv k = Some r -> r < n;
  wf_brk : Forall (fun j => j_dep j <= dep k) (brk k);
  wf_con : Forall (fun j => j_dep j <= dep k) (con k) }.

Record Fit (seen : list nat) (r : option nat) (s : stmt) : Prop := {
  fit_distinct : distinct seen s = true;
  fit_sound : sound q s = true;
  fit_catch : r <> None -> no_catch s = true;
  fit_closing : nc = true -> no_closing s = true }.

Definition calms (s : stmt) (x : bool * V) : Prop := no_closing s = false -> calm x.

Definition SimS (s : stmt) : Prop :=
  forall fuel ls seen k n cs n' pc st g e rt x w,
  gen ls k s n = Some (cs, n') -> Wf ls seen k n -> Fit seen (rv k) s ->
  at_code pc cs -> calms s x ->
  sim fuel (K (At A pc) st g e rt x w) (exec A fuel e ls s w)
    (Post (brk k) (con k) (dep k) (rv k) n n' (own ls (pc + length cs)) nobody (pc + length cs)
       (returns_last q s) (K (At A pc) st g e rt x w)).

Lemma apart_nil bs : apart [] bs.
Proof. intros j x _ H. discriminate. Qed.

Lemma wf_sub ls seen k n n' : Wf ls seen k n -> n <= n' -> Wf [] seen k n'.
Proof.
  intros H L. destruct H as [H1 H2 H3 H4 H5 H6]. constructor; auto.
  - discriminate.
  - apply apart_nil.
  - intros r E. specialize (H4 r E). lia.
Qed.

Lemma deps_le d d' js : d <= d' -> Forall (fun j => j_dep j <= d) js -> Forall (fun j => j_dep j <= d') js.
Proof. intros L. apply Forall_impl. intros; lia. Qed.

Lemma wf_under ls seen k n n' m : Wf ls seen k n -> n <= n' -> Wf [] seen (under k m) n'.
Proof.
  intros H L. apply (wf_sub _ _ _ _ n') in H; [|exact L]. destruct H as [H1 H2 H3 H4 H5 H6].
  constructor; cbn; auto; (eapply deps_le; [|eassumption]; lia).
Qed.

Lemma wf_enter ls seen k n n' m pl l : Wf ls seen k n -> n <= n' -> Wf [] seen (enter k m ls pl l) n'.
Proof.
  intros H L. pose proof (wf_ls _ _ _ _ H) as HL. apply (wf_under _ _ _ _ n' m) in H; [|exact L].
  destruct H as [H1 H2 H3 H4 H5 H6]. constructor; cbn in *; auto.
  - intros j x [<-|Hj]; [cbn; auto|eauto].
  - apply apart_nil.
Qed.

Lemma wf_loop ls seen k n n' m m' lb lc : Wf ls seen k n -> n <= n' -> Wf [] seen (enter_loop k m m' ls lb lc) n'.
Proof.
  intros H L. pose proof (wf_ls _ _ _ _ H) as HL. apply (wf_under _ _ _ _ n' (m + m')) in H; [|exact L].
  destruct H as [H1 H2 H3 H4 H5 H6]. cbn in *. rewrite Nat.add_assoc in *. constructor; cbn in *; auto.
  - intros j x [<-|Hj]; [cbn; auto|eauto].
  - apply apart_nil.
  - constructor; auto. cbn. lia.
  - constructor; auto. cbn. lia.
Qed.

Lemma fit_sub seen r s : Fit seen r s ->
  match s with
  | Seq a b | If _ a b => Fit seen r a /\ Fit seen r b
  | Block _ s | With _ _ s => Fit seen r s
  | Labelled x s => mem x seen = false /\ Fit (x :: seen) r s
  | DoWhile s _ | While _ s | For _ _ _ _ s | ForOf _ _ _ _ s => Fit seen r s
  | Try b hc _ c hf g => Fit seen r b /\ (hc = true -> Fit seen r c) /\ (hf = true -> Fit seen r g)
  | _ => True
  end.
Proof.
  intros [H1 H2 H3 H4].
  pose proof (every_sub _ _ H2) as H2'.
  assert (H3' := fun N => every_sub _ _ (H3 N)). assert (H4' := fun N => every_sub _ _ (H4 N)).
  destruct s; auto; cbn [distinct] in H1; try (apply andb_prop in H1; destruct H1 as [H1 H1']).
  - split; constructor; tauto.
  - constructor; auto.
  - split; constructor; tauto.
  - constructor; auto.
  - constructor; auto.
  - constructor; auto.
  - constructor; auto.
  - constructor; auto.
  - split; [destruct (mem x seen) eqn:E; [|reflexivity]; unfold mem in E; rewrite E in H1; discriminate|].
    constructor; auto.
  - apply andb_prop in H1. destruct H1 as [H1 H1''].
    split; [|split].
    + constructor; tauto.
    + intros ->. constructor; tauto.
    + intros ->. constructor; tauto.
Qed.

Lemma calms_sub a s x x' : (no_closing s = true -> no_closing a = true) ->
  calms s x -> quiet x x' -> calms a x'.
Proof.
  intros H C Q N. apply Q, C. destruct (no_closing s); [rewrite H in N; auto|reflexivity].
Qed.

Lemma own_nil p t : own [] p t = None.
Proof. destruct t; reflexivity. Qed.

Ltac sub := first [ let H := fresh in intros H; apply every_sub in H; tauto
                  | let H := fresh in intros H; apply every_sub in H; exact H ].

Lemma own_owns ls p t : owns false ls p t = own ls p t.
Proof. destruct t; reflexivity. Qed.

Ltac now_at := apply reach_now; eexists _, _; cbn; repeat split; eauto using frame_refl, quiet_refl.

Lemma sim_nop : SimS Nop.
Proof.
  intros fuel ls seen k n cs n' pc st g e rt x w [= <- <-] HW HF HC Hx. cbn. rewrite Nat.add_0_r.
  apply reach_now. exists g, x. cbn. auto using frame_refl, quiet_refl.
Qed.

Lemma sim_semi : SimS Semi.
Proof.
  intros fuel ls seen k n cs n' pc st g e rt x w [= <- <-] HW HF HC Hx. cbn. rewrite Nat.add_0_r.
  apply reach_now. exists g, x. cbn. auto using frame_refl, quiet_refl.
Qed.

Lemma sim_expr ev : SimS (Expr ev).
Proof.
  intros fuel ls seen k n cs n' pc st g e rt x w H HW HF HC Hx. cbn [gen] in H. cbn [exec].
  destruct (rv k) as [r|] eqn:Er; injection H as <- <-; apply at_cons in HC; destruct HC as [HC _].
  - eapply sim_eval; [exact HC| |].
    + intros w' v x' Q. apply reach_now. exists (upd A g r v), x'. cbn.
      repeat split; auto using frame_upd. intros y [= <-]. apply upd_same.
    + intros w' v. apply reach_now. apply post_throw, frame_refl.
  - eapply sim_eval; [exact HC| |].
    + intros w' v x' Q. apply reach_now. exists (upd A g n v), x'. cbn.
      repeat split; auto using frame_upd. discriminate.
    + intros w' v. apply reach_now. apply post_throw, frame_refl.
Qed.

Lemma sim_do ev : SimS (Do ev).
Proof.
  intros fuel ls seen k n cs n' pc st g e rt x w H HW HF HC Hx. cbn [gen] in H. cbn [exec].
  injection H as <- <-; apply at_cons in HC; destruct HC as [HC _].
  eapply sim_eval; [exact HC| |].
  - intros w' v x' Q. apply reach_now. exists (upd A g n v), x'. cbn.
    repeat split; auto using frame_upd. intros y Hy. apply upd_other.
    pose proof (wf_rv _ _ _ _ HW y Hy). lia.
  - intros w' v. apply reach_now. apply post_throw, frame_refl.
Qed.

Lemma sim_throw ev : SimS (Throw ev).
Proof.
  intros fuel ls seen k n cs n' pc st g e rt x w H HW HF HC Hx. cbn [gen] in H. cbn [exec].
  injection H as <- <-; apply at_cons in HC; destruct HC as [HC HC']. apply at_cons in HC'. destruct HC' as [HC' _].
  eapply sim_eval; [exact HC| |].
  - intros w' v x' Q. apply reach_step. unfold step. cbn [md]. rewrite HC'. cbn [exec_instr regs].
    rewrite upd_same. apply reach_now. apply post_throw. apply frame_upd. auto.
  - intros w' v. apply reach_now. apply post_throw, frame_refl.
Qed.

Lemma sim_return oe : SimS (Return oe).
Proof.
  intros fuel ls seen k n cs n' pc st g e rt x w H HW HF HC Hx. cbn [gen] in H. cbn [exec].
  assert (RET : forall v x' w', nth_error code (pc + 1) = Some (IReturn n) -> quiet x x' ->
     reach (K (At A (pc + 1)) st (upd A g n v) e rt x' w')
      (Post (brk k) (con k) (dep k) (rv k) n n' (own ls (pc + length cs)) nobody (pc + length cs)
       (returns_last q (Return oe)) (K (At A pc) st g e rt x w) w' (Ret A v))).
  { intros v x' w' HC' Q. apply reach_step. unfold step. cbn [md]. rewrite HC'. cbn [exec_instr regs].
    rewrite upd_same. apply reach_now. exists (upd A g n v), x'. cbn. auto using frame_upd. }
  destruct oe as [ev|]; injection H as <- <-; apply at_cons in HC; destruct HC as [HC HC'];
    apply at_cons in HC'; destruct HC' as [HC' _]; cbn [opt_eval].
  - eapply sim_eval; [exact HC| |].
    + intros w' v x' Q. apply RET; auto.
    + intros w' v. apply reach_now. apply post_throw, frame_refl.
  - apply sim_step. unfold step. cbn [md]. rewrite HC. cbn [exec_instr]. apply RET; auto using quiet_refl.
Qed.

Lemma leave_here js t j d r n n' p st g e rt x w :
  target t js = Some j -> at_code p (jump_code d r j) ->
  leave d r n n' js t None (K (At A p) st g e rt x w) w (K (At A p) st g e rt x w).
Proof.
  intros Hj Hc. exists j, p, r, g, x. cbn. repeat split; auto using frame_refl, quiet_refl.
  destruct r as [y|]; cbn; [exists y; auto|reflexivity].
Qed.

Lemma sim_break t : SimS (Break t).
Proof.
  intros fuel ls seen k n cs n' pc st g e rt x w H HW HF HC Hx. cbn [gen] in H. cbn [exec sim].
  destruct (match t with Some x => existsb (Nat.eqb x) ls | None => false end) eqn:Et.
  - injection H as <- <-. destruct t as [y|]; [|discriminate]. apply reach_now. cbn [Post own]. rewrite Et.
    cbn [length]. rewrite Nat.add_0_r. exists g, x. cbn. auto using frame_refl, quiet_refl.
  - destruct (target t (brk k)) as [j|] eqn:Ej; [|discriminate]. injection H as <- <-.
    apply reach_now. cbn [Post].
    assert (E : forall p, own ls p t = None) by (intros p; destruct t as [y|]; cbn in *; [rewrite Et|]; reflexivity).
    rewrite E. apply leave_here with (j := j); auto.
Qed.

Lemma sim_continue t : SimS (Continue t).
Proof.
  intros fuel ls seen k n cs n' pc st g e rt x w H HW HF HC Hx. cbn [gen] in H. cbn [exec sim].
  destruct (target t (con k)) as [j|] eqn:Ej; [|discriminate]. injection H as <- <-.
  apply reach_now. apply leave_here with (j := j); auto.
Qed.

Lemma sim_labelled y s : SimS s -> SimS (Labelled y s).
Proof.
  intros IH fuel ls seen k n cs n' pc st g e rt x w H HW HF HC Hx. cbn [gen] in H.
  pose proof (fit_sub _ _ _ HF) as [My HF'].
  assert (HW' : Wf (y :: ls) (y :: seen) k n).
  { destruct HW as [H1 H2 H3 H4 H5 H6]. unfold mem in *. constructor; auto; unfold mem; cbn.
    - intros z Hz. apply orb_true_iff in Hz. apply orb_true_iff. destruct Hz; auto.
    - intros j z Hj Hz. rewrite (H2 j z Hj Hz). apply orb_true_r.
    - intros j z Hj Hz. cbn in Hz. apply orb_true_iff in Hz. destruct Hz as [Hz|Hz]; [|apply H3; auto].
      apply Nat.eqb_eq in Hz. subst z. destruct (existsb (Nat.eqb y) (j_names j)) eqn:E; [|reflexivity].
      specialize (H2 j y Hj E). congruence. }
  assert (Hx' : calms s x) by (eapply calms_sub; [|exact Hx|apply quiet_refl]; sub).
  specialize (IH fuel (y :: ls) (y :: seen) k n cs n' pc st g e rt x w H HW' HF' HC Hx').
  cbn [exec]. 
  assert (HL : returns_last q (Labelled y s) = true -> returns_last q s = true) by sub.
  assert (G : forall w1 c1, exec A fuel e (y :: ls) s w = Some (w1, c1) ->
     match exec A fuel e (y :: ls) s w with
     | Some (w', Brk _ (Some z) v) => Some (w', if y =? z then Normal A v else Brk A (Some z) v)
     | r => r end = Some (w1, match c1 with Brk _ (Some z) v => if y =? z then Normal A v else Brk A (Some z) v | c => c end)).
  { intros w1 c1 ->. destruct c1 as [|[z|]| | |]; reflexivity. }
  destruct (exec A fuel e (y :: ls) s w) as [[w1 c1]|] eqn:E; [|exact IH].
  rewrite (G _ _ eq_refl). clear G. cbn [sim] in *.
  eapply reach_bind; [exact IH|]. intros c Hc. apply reach_now.
  assert (Hc' : Post (brk k) (con k) (dep k) (rv k) n n' (own (y :: ls) (pc + length cs)) nobody (pc + length cs)
           (returns_last q (Labelled y s)) (K (At A pc) st g e rt x w) w1 c1 c).
  { eapply (post_weak _ _ _ _ _ _ _ _ _ _ _ n n' (returns_last q s)); [..|exact Hc]; cbn; auto using frame_refl, quiet_refl. }
  clear Hc. destruct c1 as [ov|[z|] ov|t ov|v|ev]; try exact Hc'.
  cbn [Post own existsb] in Hc'. rewrite (Nat.eqb_sym z y) in Hc'.
  destruct (Nat.eqb_spec y z) as [Ez|N]; cbn [orb] in Hc'; exact Hc'.
Qed.

Lemma sim_seq s1 s2 : SimS s1 -> SimS s2 -> SimS (Seq s1 s2).
Proof.
  intros IH1 IH2 fuel ls seen k n cs n' pc st g e rt x w H HW HF HC Hx. cbn [gen] in H.
  pose proof (fit_sub _ _ _ HF) as [HF1 HF2].
  destruct (gen [] k s1 n) as [[c1 n1]|] eqn:E1; [|discriminate].
  destruct (gen [] k s2 n1) as [[c2 n2]|] eqn:E2; [|discriminate]. injection H as <- <-.
  pose proof (gen_le _ _ _ _ _ _ E1) as L1. pose proof (gen_le _ _ _ _ _ _ E2) as L2.
  apply at_app in HC. destruct HC as [HC1 HC2].
  assert (Hx1 : calms s1 x) by (eapply calms_sub; [|exact Hx|apply quiet_refl]; sub).
  assert (HL1 : returns_last q (Seq s1 s2) = true -> returns_last q s1 = true) by sub.
  assert (HL2 : returns_last q (Seq s1 s2) = true -> returns_last q s2 = true) by sub.
  specialize (IH1 fuel [] seen k n c1 n1 pc st g e rt x w E1 (wf_sub _ _ _ _ _ HW (le_n _)) HF1 HC1 Hx1).
  rewrite app_length, Nat.add_assoc.
  cbn [exec]. destruct (exec A fuel e [] s1 w) as [[w1 cm1]|] eqn:X1; [|exact IH1]. cbn [sim] in IH1.
  assert (ESC : match cm1 with Normal _ _ => True | _ =>
     reach (K (At A pc) st g e rt x w)
       (Post (brk k) (con k) (dep k) (rv k) n n2 (own ls (pc + length c1 + length c2)) nobody (pc + length c1 + length c2)
          (returns_last q (Seq s1 s2)) (K (At A pc) st g e rt x w) w1 cm1) end).
  { assert (G : reach (K (At A pc) st g e rt x w)
       (Post (brk k) (con k) (dep k) (rv k) n n2 (own ls (pc + length c1 + length c2)) nobody (pc + length c1)
          (returns_last q (Seq s1 s2)) (K (At A pc) st g e rt x w) w1 cm1)).
    { eapply reach_bind; [exact IH1|]. intros c Hc. apply reach_now.
      eapply post_own; [apply HW|apply own_nil|].
      eapply (post_weak _ _ _ _ _ _ _ _ _ _ _ n n1); [..|exact Hc]; cbn; auto using frame_refl, quiet_refl. }
    destruct cm1; try exact I; exact G. }
  destruct cm1 as [v1|t v1|t v1|v1|v1]; try exact ESC. clear ESC.
  match goal with |- sim _ _ ?r _ =>
    replace r with (match exec A fuel e [] s2 w1 with Some (w2, c) => Some (w2, update_empty A c v1) | None => None end)
      by reflexivity end.
  eapply sim_bind; [exact IH1|]. intros c (g1 & x1 & -> & F1 & Q1 & V1). cbn [stk regs env retv er] in *.
  assert (Hx2 : calms s2 x1) by (eapply calms_sub; [|exact Hx|exact Q1]; sub).
  specialize (IH2 fuel [] seen k n1 c2 n2 (pc + length c1) st g1 e rt x1 w1 E2 (wf_sub _ _ _ _ _ HW L1) HF2 HC2 Hx2).
  eapply sim_map; [exact IH2|]. intros w2 cm c Hc. apply reach_now.
  eapply post_own; [apply HW|apply own_nil|].
  eapply (post_shift _ _ _ _ _ _ _ _ _ _ _ n1 n2); [..|exact Hc]; cbn; auto using frame_refl, quiet_refl.
Qed.

Ltac len := cbn [length app]; repeat (rewrite app_length; cbn [length app]); lia.

Ltac wk := cbn; auto using frame_refl, quiet_refl.

Lemma own_shift ls p t : shift (owns false ls p) t = own ls (p + 1) t.
Proof. unfold shift. destruct t as [y|]; cbn; [destruct (existsb (Nat.eqb y) ls)|]; reflexivity. Qed.

Lemma owns_pop pl ls p t p' : owns pl ls p t = Some p' -> p' = p.
Proof.
  destruct t as [y|]; cbn; [destruct (existsb (Nat.eqb y) ls)|destruct pl]; congruence.
Qed.

Lemma own_pop ls p t p' : own ls p t = Some p' -> p' = p.
Proof. destruct t as [y|]; cbn; [destruct (existsb (Nat.eqb y) ls)|]; congruence. Qed.

(** A statement inside a scope of its own, ending with a label and the pop. *)
Lemma scoped_end ls k le s n n' p last m st g y e rt x w0 m' w0' :
  Forall (fun j => j_dep j <= dep k) (brk k) -> Forall (fun j => j_dep j <= dep k) (con k) ->
  nth_error code p = Some (IStub le) -> nth_error code (p + 1) = Some IPop ->
  forall w cm c,
  Post (brk (enter k 1 ls false le)) (con (enter k 1 ls false le)) (dep (enter k 1 ls false le)) (rv (enter k 1 ls false le))
    n n' (own [] s) nobody p last (K m (SScope A :: st) g (y :: e) rt x w0) w cm c ->
  reach c (Post (brk k) (con k) (dep k) (rv k) n n' (own ls (p + 2)) nobody (p + 2) last (K m' st g e rt x w0') w cm).
Proof.
  intros Fb Fc H1 H2 w cm c H. cbn [enter brk con dep rv] in H.
  eapply (post_ext _ _ _ _ _ _ _ _ _ _ _ nobody nobody) in H; [|intros; apply own_nil|reflexivity].
  eapply reach_bind; [eapply (post_land_brk _ (brk k)) with (p := p); [..|exact H]; cbn; auto|].
  clear c H. intros c H. cbn [j_plain j_names] in H.
  eapply reach_bind; [eapply post_pass; [exact H1|exact H]|]. clear c H. intros c H.
  eapply reach_bind; [eapply post_unscope; [exact Fb|exact Fc|exact H2| | |exact H]|].
  - intros t p' E. apply owns_pop in E. subst p'. exact H2.
  - discriminate.
  - clear c H. intros c H. apply reach_now.
    replace (p + 2) with (p + 1 + 1) by lia.
    eapply post_ext; [| |exact H]; [apply own_shift|reflexivity].
Qed.

Lemma block_cases d s : s = Nop \/
  (forall ls k n, gen ls k (Block d s) n =
     match gen [] (enter k 1 ls false n) s (n + 1) with
     | None => None
     | Some (c, n1) => Some (IScope d :: c ++ [IStub n; IPop], n1)
     end) /\
  (forall fuel env ls w, exec A fuel env ls (Block d s) w =
     let (w1, x) := w_scope A d env w in exec A fuel (x :: env) [] s w1).
Proof. destruct s; auto; right; split; reflexivity. Qed.

Lemma sim_block d s : SimS s -> SimS (Block d s).
Proof.
  intros IH fuel ls seen k n cs n' pc st g e rt x w H HW HF HC Hx.
  destruct (block_cases d s) as [->|[EG EX]].
  { cbn in H. injection H as <- <-. cbn. rewrite Nat.add_0_r. apply reach_now. exists g, x. wk. }
  rewrite EG in H. rewrite EX. clear EG EX.
  pose proof (fit_sub _ _ _ HF) as HF1.
  destruct (gen [] _ s (n + 1)) as [[c1 n1]|] eqn:E1; [|discriminate]. injection H as <- <-.
  apply at_cons in HC. destruct HC as [HC1 HC]. apply at_app in HC. destruct HC as [HC2 HC].
  apply at_cons in HC. destruct HC as [HC3 HC]. apply at_cons in HC. destruct HC as [HC4 _].
  assert (Hx1 : calms s x) by (eapply calms_sub; [|exact Hx|apply quiet_refl]; sub).
  assert (HL1 : returns_last q (Block d s) = true -> returns_last q s = true) by sub.
  apply sim_step. unfold step. cbn [md]. rewrite HC1. cbn [exec_instr env wd].
  destruct (w_scope A d e w) as [w1 y].
  specialize (IH fuel [] seen (enter k 1 ls false n) (n + 1) c1 n1 (pc + 1) (SScope A :: st) g (y :: e) rt x w1 E1).
  specialize (IH (wf_enter _ _ _ _ (n + 1) 1 false n HW ltac:(lia)) HF1 HC2 Hx1).
  eapply sim_post; [exact IH|]. intros w2 cm c Hc.
  eapply reach_bind; [eapply scoped_end with (m' := At A pc) (w0' := w); [apply HW|apply HW|exact HC3|exact HC4|exact Hc]|].
  clear c Hc. intros c Hc. apply reach_now.
  replace (pc + length (IScope d :: c1 ++ [IStub n; IPop])) with (pc + 1 + length c1 + 2) by len.
  eapply (post_weak _ _ _ _ _ _ _ _ _ _ _ (n + 1) n1 (returns_last q s)); [..|exact Hc]; wk. lia.
Qed.

Lemma sim_with_stmt ev d s : SimS s -> SimS (With ev d s).
Proof.
  intros IH fuel ls seen k n cs n' pc st g e rt x w H HW HF HC Hx. cbn [gen] in H. cbv zeta in H.
  pose proof (fit_sub _ _ _ HF) as HF1.
  destruct (gen [] _ s (n + 2)) as [[c1 n1]|] eqn:E1; [|discriminate]. injection H as <- <-.
  pose proof (gen_le _ _ _ _ _ _ E1) as L1.
  apply at_cons in HC. destruct HC as [HC1 HC]. apply at_app in HC. destruct HC as [HC2 HC].
  apply at_cons in HC. destruct HC as [HC3 HC]. apply at_app in HC. destruct HC as [HC4 HC].
  apply at_cons in HC. destruct HC as [HC5 HC]. apply at_cons in HC. destruct HC as [HC6 _].
  assert (HL1 : returns_last q (With ev d s) = true -> returns_last q s = true) by sub.
  set (p2 := pc + 1 + length (clear (rv k))) in *.
  replace (pc + length _) with (p2 + 1 + length c1 + 2) by (unfold p2; len).
  set (P := Post _ _ _ _ _ _ _ _ _ _ _). cbn [exec].
  eapply sim_eval; [exact HC1| |intros w' v; apply reach_now; apply post_throw, frame_refl].
  intros w1 v x1 Q1. eapply sim_clear; [exact HC2|].
  set (g1 := clr (rv k) (upd A g n v)).
  assert (Eg : g1 n = v).
  { unfold g1. rewrite clr_other; [apply upd_same|]. intros Er. pose proof (wf_rv _ _ _ _ HW n Er). lia. }
  assert (Fg : frame n (rv k) g g1).
  { eapply frame_trans; [apply le_n|apply frame_upd; left; apply le_n|apply clr_frame]. }
  rewrite <- Eg. clear Eg.
  eapply sim_with; [exact HC3| |intros w' v'; apply reach_now; apply post_throw; exact Fg].
  intros w2 y x2 Q2.
  assert (Hx1 : calms s x2) by (eapply calms_sub; [|exact Hx|eapply quiet_trans; eauto]; sub).
  specialize (IH fuel [] seen (enter k 1 ls false (n + 1)) (n + 2) c1 n1 (p2 + 1) (SScope A :: st) g1 (y :: e) rt x2 w2 E1).
  specialize (IH (wf_enter _ _ _ _ (n + 2) 1 false (n + 1) HW ltac:(lia)) HF1 HC4 Hx1).
  eapply sim_map; [exact IH|]. intros w3 cm c Hc.
  eapply reach_bind; [eapply scoped_end with (m' := At A pc) (w0' := w); [apply HW|apply HW|exact HC5|exact HC6|exact Hc]|].
  clear c Hc. intros c Hc. apply reach_now.
  eapply (post_shift _ _ _ _ _ _ _ _ _ _ _ (n + 2) n1 (returns_last q s)); [..|exact Hc]; wk; try lia.
  - eapply quiet_trans; eauto.
  - intros z Hz. cbn. unfold g1. apply clr_val. exact Hz.
Qed.

Lemma sim_if ev s1 s2 : SimS s1 -> SimS s2 -> SimS (If ev s1 s2).
Proof.
  intros IH1 IH2 fuel ls seen k n cs n' pc st g e rt x w H HW HF HC Hx. cbn [gen] in H. cbv zeta in H.
  pose proof (fit_sub _ _ _ HF) as [HF1 HF2].
  destruct (gen [] _ s1 (n + 3)) as [[c1 n1]|] eqn:E1; [|discriminate].
  destruct (gen [] k s2 n1) as [[c2 n2]|] eqn:E2; [|discriminate]. injection H as <- <-.
  pose proof (gen_le _ _ _ _ _ _ E1) as L1. pose proof (gen_le _ _ _ _ _ _ E2) as L2.
  apply at_app in HC. destruct HC as [HC1 HC].
  apply at_cons in HC. destruct HC as [HC2 HC].
  apply at_cons in HC. destruct HC as [HC3 HC]. apply at_app in HC. destruct HC as [HC4 HC].
  apply at_cons in HC. destruct HC as [HC5 HC]. apply at_cons in HC. destruct HC as [HC6 HC].
  apply at_app in HC. destruct HC as [HC7 HC]. apply at_cons in HC. destruct HC as [HC8 _].
  assert (HL1 : returns_last q (If ev s1 s2) = true -> returns_last q s1 = true) by sub.
  assert (HL2 : returns_last q (If ev s1 s2) = true -> returns_last q s2 = true) by sub.
  set (p1 := pc + length (clear (rv k))) in *.
  set (p8 := p1 + 1 + 1 + length c1 + 1 + 1 + length c2) in *.
  replace (pc + length _) with (p8 + 1) by (unfold p8, p1; len).
  eapply sim_clear; [exact HC1|]. fold p1. cbn [exec].
  set (g1 := clr (rv k) g).
  eapply sim_eval; [exact HC2| |intros w' v; apply reach_now; apply post_throw, clr_frame].
  intros w1 v x1 Q1. apply sim_step. rewrite (step_jumpf _ _ _ _ HC3 HC6). rewrite upd_same.
  set (g2 := upd A g1 n v).
  assert (Fg : frame n (rv k) g g2).
  { eapply frame_trans; [apply le_n|apply clr_frame|apply frame_upd; left; apply le_n]. }
  assert (Vg : forall z, rv k = Some z -> g2 z = undef A).
  { intros z Hz. unfold g2. rewrite upd_other; [apply clr_val; exact Hz|]. pose proof (wf_rv _ _ _ _ HW z Hz). lia. }
  destruct (truthy A v).
  - assert (Hx1 : calms s1 x1) by (eapply calms_sub; [|exact Hx|eauto]; sub).
    specialize (IH1 fuel [] seen (enter k 0 ls false (n + 2)) (n + 3) c1 n1 (p1 + 1 + 1) st g2 e rt x1 w1 E1).
    specialize (IH1 (wf_enter _ _ _ _ (n + 3) 0 false (n + 2) HW ltac:(lia)) HF1 HC4 Hx1).
    eapply sim_map; [exact IH1|]. intros w3 cm c Hc. cbn [enter brk con dep rv] in Hc.
    eapply (post_ext _ _ _ _ _ _ _ _ _ _ _ nobody nobody) in Hc; [|intros; apply own_nil|reflexivity].
    eapply reach_bind; [eapply (post_land_brk _ (brk k)) with (p := p8); [..|exact Hc]; cbn; auto|].
    clear c Hc. intros c Hc. cbn [j_plain j_names] in Hc. rewrite Nat.add_0_r in Hc.
    eapply reach_bind; [eapply post_jump; [exact HC5|exact HC8|exact Hc]|].
    clear c Hc. intros c Hc. apply reach_now.
    eapply (post_ext _ _ _ _ _ _ _ _ _ _ _ (own ls (p8 + 1)) nobody) in Hc; [|intros; apply own_owns|reflexivity].
    eapply (post_shift _ _ _ _ _ _ _ _ _ _ _ (n + 3) n1 (returns_last q s1)); [..|exact Hc]; wk; lia.
  - apply sim_step. rewrite (step_stub _ _ _ HC6 eq_refl).
    assert (Hx1 : calms s2 x1) by (eapply calms_sub; [|exact Hx|eauto]; sub).
    specialize (IH2 fuel [] seen k n1 c2 n2 (p1 + 1 + 1 + length c1 + 1 + 1) st g2 e rt x1 w1 E2).
    specialize (IH2 (wf_sub _ _ _ _ n1 HW ltac:(lia)) HF2 HC7 Hx1).
    eapply sim_map; [exact IH2|]. intros w3 cm c Hc.
    eapply reach_bind; [eapply post_pass; [exact HC8|exact Hc]|].
    clear c Hc. intros c Hc. apply reach_now.
    eapply post_own; [apply HW|apply own_nil|].
    eapply (post_shift _ _ _ _ _ _ _ _ _ _ _ n1 n2 (returns_last q s2)); [..|exact Hc]; wk; lia.
Qed.

(** The body of a loop: jumps to the loop itself end at its labels. *)
Lemma loop_body s k m ls seen fuel lb lc n cs n' pb plb plc st g e rt x w :
  SimS s ->
  gen [] (enter_loop k m 0 ls lb lc) s n = Some (cs, n') -> Wf ls seen k n -> Fit seen (rv k) s ->
  at_code pb cs -> calms s x ->
  nth_error code plb = Some (IStub lb) -> nth_error code plc = Some (IStub lc) ->
  sim fuel (K (At A pb) st g e rt x w) (exec A fuel e [] s w)
    (Post (brk k) (con k) (dep k + m) (rv k) n n' (owns true ls (plb + 1)) (owns true ls (plc + 1))
       (pb + length cs) (returns_last q s) (K (At A pb) st g e rt x w)).
Proof.
  intros IH E HW HF HC Hx Hb Hc0.
  specialize (IH fuel [] seen (enter_loop k m 0 ls lb lc) n cs n' pb st g e rt x w E
                (wf_loop _ _ _ _ n m 0 lb lc HW (le_n _)) HF HC Hx).
  eapply sim_post; [exact IH|]. intros w1 cm c H. cbn [enter_loop brk con dep rv] in H.
  eapply (post_ext _ _ _ _ _ _ _ _ _ _ _ nobody nobody) in H; [|intros; apply own_nil|reflexivity].
  rewrite Nat.add_0_r in H.
  eapply reach_bind; [eapply (post_land_brk _ (brk k)) with (p := plb); [..|exact H]; cbn; auto|].
  clear c H. intros c H. cbn [j_plain j_names] in H.
  eapply reach_bind; [eapply (post_land_con _ _ (con k)) with (p := plc); [..|exact H]; cbn; auto|].
  clear c H. intros c H. apply reach_now. exact H.
Qed.

(** How a loop body's completion ends the loop. *)
Lemma loop_done bs cs d r n n' ls pb plc pe last c0 n1 n1' last1 c1 v :
  n <= n1 -> n1' <= n' ->
  stk A c1 = stk A c0 -> env A c1 = env A c0 -> retv A c1 = retv A c0 ->
  frame n r (regs A c0) (regs A c1) -> quiet (er A c0) (er A c1) ->
  (forall y, r = Some y -> regs A c1 y = v) -> (last = true -> last1 = true) ->
  forall w cm c,
  Post bs cs d r n1 n1' (owns true ls pb) (owns true ls plc) pe last1 c1 w cm c ->
  loop_continues A cm ls = false ->
  Post bs cs d r n n' (owns true ls pb) nobody pb last c0 w (update_empty A cm (Some v)) c.
Proof.
  intros L1 L2 Es Ee Er F Q Hv Hl w cm c H HL.
  eapply loop_leave with (pe' := pb) in H; [|exact HL].
  eapply (post_shift _ _ _ _ _ _ _ _ _ _ _ n1 n1' last1 c1); eauto.
Qed.

Lemma carry_value cm v old : old = v -> vof (value_of A cm) old = carry A cm v.
Proof. intros ->. unfold carry, vof. destruct (value_of A cm); reflexivity. Qed.

(** What holds each time a loop starts a round. *)
Definition Round (r : option nat) (n p : nat) (st : list (state A)) (g : nat -> V) (e : list nat)
    (rt : V) (x : bool * V) (v : V) (w : W) (c : config) : Prop :=
  exists g' x', c = K (At A p) st g' e rt x' w /\ frame n r g g' /\ quiet x x'
    /\ (forall y, r = Some y -> g' y = v).

Lemma round_live r n p st g e rt x v w c : Round r n p st g e rt x v w c -> live c.
Proof. intros (g' & x' & -> & _). exact I. Qed.

(** A round from the completion of the one before. *)
Lemma round_next r n n1 p p' st g g1 e rt x x1 v cm w1 w c m :
  arrive r n1 p (value_of A cm) (K m st g1 e rt x1 w1) w c ->
  n <= n1 -> frame n r g g1 -> quiet x x1 -> (forall y, r = Some y -> g1 y = v) -> p = p' ->
  Round r n p' st g e rt x (carry A cm v) w c.
Proof.
  intros (g' & x' & -> & F & Q & Hv) L F1 Q1 V1 <-. exists g', x'. cbn in *.
  repeat split; [eapply frame_trans; eauto|eapply quiet_trans; eauto|].
  intros y Hy. rewrite (Hv y Hy). apply carry_value, V1, Hy.
Qed.

Lemma owns_own_post bs cs d r n n' ls pe last c0 w cm v c :
  Post bs cs d r n n' (owns true ls pe) nobody pe last c0 w (update_empty A cm (Some v)) c ->
  Post bs cs d r n n' (own ls pe) nobody pe last c0 w (breakable A (update_empty A cm (Some v))) c.
Proof. intros H. apply post_breakable; [exact H|apply update_some_brk]. Qed.

Lemma sim_dowhile s ev : SimS s -> SimS (DoWhile s ev).
Proof.
  intros IH fuel ls seen k n cs n' pc st g e rt x w H HW HF HC Hx. cbn [gen] in H. cbv zeta in H.
  pose proof (fit_sub _ _ _ HF) as HF1.
  destruct (gen [] _ s (n + 4)) as [[c1 n1]|] eqn:E1; [|discriminate]. injection H as <- <-.
  pose proof (gen_le _ _ _ _ _ _ E1) as L1.
  apply at_app in HC. destruct HC as [HC1 HC].
  apply at_cons in HC. destruct HC as [HC2 HC]. apply at_app in HC. destruct HC as [HC3 HC].
  apply at_cons in HC. destruct HC as [HC4 HC]. apply at_cons in HC. destruct HC as [HC5 HC].
  apply at_cons in HC. destruct HC as [HC6 HC]. apply at_cons in HC. destruct HC as [HC7 _].
  assert (HL1 : returns_last q (DoWhile s ev) = true -> returns_last q s = true) by sub.
  set (p1 := pc + length (clear (rv k))) in *.
  set (p7 := p1 + 1 + length c1 + 1 + 1 + 1) in *.
  replace (pc + length _) with (p7 + 1) by (unfold p7, p1; len).
  eapply sim_clear; [exact HC1|]. fold p1. cbn [exec].
  set (P := Post _ _ _ _ _ _ _ _ _ _ _).
  eapply (sim_map _ _ _ (fun w cm => P w (breakable A cm))); [|intros w' cm c Hc; apply reach_now; exact Hc].
  eapply rounds_sim with (Inv := Round (rv k) n p1 st g e rt x); [apply round_live| |apply le_n|].
  2: { exists (clr (rv k) g), x. repeat split; auto using clr_frame, quiet_refl. apply clr_val. }
  rename w into wi. intros v w c (g1 & x1 & -> & F1 & Q1 & V1).
  rewrite (step_stub _ _ _ HC2 eq_refl).
  assert (Hx1 : calms s x1) by (eapply calms_sub; [|exact Hx|exact Q1]; sub).
  assert (HW4 : Wf ls seen k (n + 4)).
  { destruct HW as [W1 W2 W3 W4 W5 W6]. constructor; auto. intros r Er. specialize (W4 r Er). lia. }
  pose proof (loop_body s k 0 ls seen fuel (n + 2) (n + 3) (n + 4) c1 n1 (p1 + 1) p7 (p1 + 1 + length c1) st g1 e rt x1 w
                IH E1 HW4 HF1 HC3 Hx1 HC7 HC4) as HB.
  rewrite Nat.add_0_r in HB.
  destruct (exec A fuel e [] s w) as [[w1 cm]|]; [|exact HB]. cbn [sim] in HB.
  destruct (loop_continues A cm ls) eqn:HLC.
  - assert (HA : reach (K (At A (p1 + 1)) st g1 e rt x1 w)
                  (Round (rv k) n (p1 + 1 + length c1 + 1) st g e rt x (carry A cm v) w1)).
    { eapply reach_bind; [exact HB|]. intros c Hc.
      eapply reach_bind; [eapply post_pass; [exact HC4|exact Hc]|]. clear c Hc. intros c Hc. apply reach_now.
      eapply loop_again in Hc; [|reflexivity|exact HLC].
      eapply round_next; [exact Hc|..]; auto. lia. }
    eapply sim_bind; [exact HA|]. intros c (g2 & x2 & -> & F2 & Q2 & V2).
    eapply sim_eval; [exact HC5| |].
    + intros w2 b x3 Q3. apply sim_step. rewrite (step_jumpt _ _ _ _ HC6 HC2). rewrite upd_same.
      destruct (truthy A b).
      * apply reach_now. exists (upd A g2 n b), x3. repeat split.
        -- eapply frame_trans; [apply le_n|exact F2|apply frame_upd; auto].
        -- eapply quiet_trans; eauto.
        -- intros y Hy. pose proof (wf_rv _ _ _ _ HW y Hy). rewrite upd_other by lia. auto.
      * apply reach_step. fold p7. rewrite (step_stub _ _ _ HC7 eq_refl). apply reach_now.
        exists (upd A g2 n b), x3. cbn. repeat split.
        -- eapply frame_trans; [apply le_n|exact F2|apply frame_upd; auto].
        -- eapply quiet_trans; eauto.
        -- intros y Hy. pose proof (wf_rv _ _ _ _ HW y Hy). rewrite upd_other by lia. auto.
    + intros w2 b. apply reach_now. apply post_throw. exact F2.
  - eapply reach_bind; [exact HB|]. intros c Hc. apply reach_now. cbn beta.
    apply owns_own_post.
    eapply (loop_done _ _ _ _ _ _ _ _ _ _ _ _ (n + 4) n1 (returns_last q s)); [..|exact Hc|exact HLC]; wk; lia.
Qed.

Lemma sim_while ev s : SimS s -> SimS (While ev s).
Proof.
  intros IH fuel ls seen k n cs n' pc st g e rt x w H HW HF HC Hx. cbn [gen] in H. cbv zeta in H.
  pose proof (fit_sub _ _ _ HF) as HF1.
  destruct (gen [] _ s (n + 3)) as [[c1 n1]|] eqn:E1; [|discriminate]. injection H as <- <-.
  pose proof (gen_le _ _ _ _ _ _ E1) as L1.
  apply at_app in HC. destruct HC as [HC1 HC].
  apply at_cons in HC. destruct HC as [HC2 HC]. apply at_cons in HC. destruct HC as [HC3 HC].
  apply at_cons in HC. destruct HC as [HC4 HC]. apply at_app in HC. destruct HC as [HC5 HC].
  apply at_cons in HC. destruct HC as [HC6 HC]. apply at_cons in HC. destruct HC as [HC7 _].
  assert (HL1 : returns_last q (While ev s) = true -> returns_last q s = true) by sub.
  set (p1 := pc + length (clear (rv k))) in *.
  set (p7 := p1 + 1 + 1 + 1 + length c1 + 1) in *.
  replace (pc + length _) with (p7 + 1) by (unfold p7, p1; len).
  eapply sim_clear; [exact HC1|]. fold p1. cbn [exec].
  set (P := Post _ _ _ _ _ _ _ _ _ _ _).
  apply sim_step. rewrite (step_stub _ _ _ HC2 eq_refl).
  eapply (sim_map _ _ _ (fun w cm => P w (breakable A cm))); [|intros w' cm c Hc; apply reach_now; exact Hc].
  eapply rounds_sim with (Inv := Round (rv k) n (p1 + 1) st g e rt x); [apply round_live| |apply le_n|].
  2: { exists (clr (rv k) g), x. repeat split; auto using clr_frame, quiet_refl. apply clr_val. }
  rename w into wi. intros v w c (g1 & x1 & -> & F1 & Q1 & V1).
  eapply sim_eval_step; [exact HC3| |intros w2 b; apply reach_now; apply post_throw; exact F1].
  intros w2 b x2 Q2. apply sim_step. rewrite (step_jumpf _ _ _ _ HC4 HC7). rewrite upd_same.
  set (g2 := upd A g1 n b).
  assert (F2 : frame n (rv k) g g2) by (eapply frame_trans; [apply le_n|exact F1|apply frame_upd; auto]).
  assert (Q2' : quiet x x2) by (eapply quiet_trans; eauto).
  assert (V2 : forall y, rv k = Some y -> g2 y = v).
  { intros y Hy. pose proof (wf_rv _ _ _ _ HW y Hy). unfold g2. rewrite upd_other by lia. auto. }
  destruct (truthy A b).
  2: { apply reach_step. rewrite (step_stub _ _ _ HC7 eq_refl). apply reach_now. exists g2, x2. cbn. auto. }
  assert (Hx1 : calms s x2) by (eapply calms_sub; [|exact Hx|exact Q2']; sub).
  assert (HW4 : Wf ls seen k (n + 3)).
  { destruct HW as [W1 W2 W3 W4 W5 W6]. constructor; auto. intros r Er. specialize (W4 r Er). lia. }
  pose proof (loop_body s k 0 ls seen fuel (n + 2) (n + 1) (n + 3) c1 n1 (p1 + 1 + 1 + 1) p7 p1 st g2 e rt x2 w2
                IH E1 HW4 HF1 HC5 Hx1 HC7 HC2) as HB.
  rewrite Nat.add_0_r in HB.
  destruct (exec A fuel e [] s w2) as [[w1 cm]|]; [|exact HB]. cbn [sim] in HB |- *.
  eapply reach_bind; [exact HB|]. intros c Hc.
  destruct (loop_continues A cm ls) eqn:HLC.
  - eapply reach_bind; [eapply post_jump; [exact HC6|exact HC2|exact Hc]|]. clear c Hc. intros c Hc. apply reach_now.
    eapply loop_again in Hc; [|reflexivity|exact HLC].
    eapply round_next; [exact Hc|..]; auto. lia.
  - apply reach_now. cbn beta. apply owns_own_post.
    eapply (loop_done _ _ _ _ _ _ _ _ _ _ _ _ (n + 3) n1 (returns_last q s)); [..|exact Hc|exact HLC]; wk; lia.
Qed.

Definition RoundFor (d : option nat) (r : option nat) (n p : nat) (st : list (state A)) (g : nat -> V) (e : list nat)
    (rt : V) (x : bool * V) (b : V * list nat) (w : W) (c : config) : Prop :=
  opened d e (snd b) /\ Round r n p (sc d st) g (snd b) rt x (fst b) w c.

Lemma wf_more ls seen k n n' : Wf ls seen k n -> n <= n' -> Wf ls seen k n'.
Proof.
  intros [W1 W2 W3 W4 W5 W6] L. constructor; auto. intros r Er. specialize (W4 r Er). lia.
Qed.

Lemma owns_shift pl ls p (d : option nat) t : owns pl ls (p + one d) t = option_map (fun p => p + one d) (owns pl ls p t).
Proof. destruct t as [y|]; cbn; [destruct (existsb (Nat.eqb y) ls)|destruct pl]; reflexivity. Qed.

Lemma unscope_len (d : option nat) : length (unscope d) = one d.
Proof. destruct d; reflexivity. Qed.

Lemma sim_for d init test stp s : SimS s -> SimS (For d init test stp s).
Proof.
  intros IH fuel ls seen k n cs n' pc st g e rt x w H HW HF HC Hx. cbn [gen] in H. cbv zeta in H.
  pose proof (fit_sub _ _ _ HF) as HF1.
  destruct (gen [] _ s (n + 6)) as [[c1 n1]|] eqn:E1; [|discriminate]. injection H as <- <-.
  pose proof (gen_le _ _ _ _ _ _ E1) as L1.
  apply at_app in HC. destruct HC as [HC1 HC].
  apply at_app in HC. destruct HC as [HC2 HC].
  apply at_app in HC. destruct HC as [HC3 HC].
  apply at_app in HC. destruct HC as [HC4 HC].
  apply at_cons in HC. destruct HC as [HC5 HC].
  apply at_app in HC. destruct HC as [HC6 HC].
  apply at_app in HC. destruct HC as [HC7 HC].
  apply at_cons in HC. destruct HC as [HC8 HC].
  apply at_app in HC. destruct HC as [HC9 HC].
  apply at_app in HC. destruct HC as [HC10 HC].
  apply at_cons in HC. destruct HC as [HC11 HC].
  apply at_cons in HC. destruct HC as [HC12 HC13].
  assert (HL1 : returns_last q (For d init test stp s) = true -> returns_last q s = true) by sub.
  match type of HC13 with at_code ?X _ => set (pe := X) in * end.
  replace (pc + length _) with (pe + one d).
  2: { unfold pe. rewrite <- (unscope_len d). len. }
  match type of HC5 with nth_error _ ?X = _ => set (p5 := X) in * end.
  match type of HC8 with nth_error _ ?X = _ => set (p8 := X) in * end.
  match type of HC11 with nth_error _ ?X = _ => set (p11 := X) in * end.
  set (P := Post _ _ _ _ _ _ _ _ _ _ _).
  assert (WFb := wf_brk _ _ _ _ HW). assert (WFc := wf_con _ _ _ _ HW).
  (* every way out leaves the scope *)
  assert (OUT : forall n2 n2' last2 g1 e1 x1 w1, opened d e e1 -> n <= n2 -> n2' <= n1 ->
     (returns_last q (For d init test stp s) = true -> last2 = true) ->
     frame n (rv k) g g1 -> quiet x x1 ->
     forall v1 w2 cm c, (forall y, rv k = Some y -> g1 y = vof v1 (g y)) ->
     Post (brk k) (con k) (dep k + one d) (rv k) n2 n2' (owns true ls pe) nobody pe last2
          (K (At A pc) (sc d st) g1 e1 rt x1 w1) w2 cm c ->
     update_empty A cm v1 <> Brk A None None ->
     reach c (P w2 (breakable A (update_empty A cm v1)))).
  { intros n2 n2' last2 g1 e1 x1 w1 Ho La Lb Hl F Q v1 w2 cm c Hv Hc NB.
    eapply reach_bind; [eapply (post_unscope_opt d (brk k) (con k) (dep k)) with (m' := At A pc) (w0' := w); [exact Ho|exact WFb|exact WFc|exact HC13| | |apply owns_shift| |exact Hc]|].
    - intros t p Ep. apply owns_pop in Ep. subst p. exact HC13.
    - discriminate.
    - reflexivity.
    - clear c Hc. intros c Hc. apply reach_now. apply post_breakable; [|exact NB].
      eapply (post_shift _ _ _ _ _ _ _ _ _ _ _ n2 n2' last2); [..|exact Hc]; wk. }
  assert (THR : forall e1 g1 v w1, opened d e e1 -> frame n (rv k) g g1 ->
     reach (K (Un A XErr) (sc d st) g1 e1 rt (true, v) w1) (P w1 (Thr A v))).
  { intros e1 g1 v w1 Ho F. eapply throw_scope; [exact Ho|]. apply reach_now. apply post_throw. exact F. }
  cbn [exec].
  eapply sim_scope; [exact HC1|]. intros w0 e0 Ho0.
  assert (REST : forall w1 g1 x1, frame n (rv k) g g1 -> quiet x x1 ->
     sim fuel (K (At A (pc + length (scope d) + length (match init with Some e => [IEval e (n + 3)] | None => [] end)))
                 (sc d st) g1 e0 rt x1 w1)
      (let (w2, env1) := fresh_copy A d e0 w1 in
        match rounds A fuel (fun (b : V * list nat) w =>
                let (v, env) := b in
                opt_eval A test env w (fun w e => Some (w, inr (Thr A e)))
                  (fun w x =>
                     if match x with Some x => truthy A x | None => true end then
                       match exec A fuel env [] s w with
                       | None => None
                       | Some (w1, c) =>
                           if loop_continues A c ls then
                             let (w2, env') := fresh_copy A d env w1 in
                             opt_eval A stp env' w2 (fun w e => Some (w, inr (Thr A e)))
                               (fun w _ => Some (w, inl (carry A c v, env')))
                           else Some (w1, inr (update_empty A c (Some v)))
                       end
                     else Some (w, inr (Normal A (Some v))))) (undef A, env1) w2 with
        | Some (w', c) => Some (w', breakable A c)
        | None => None
        end) P).
  { intros w1 g1 x1 F1 Q1. eapply sim_clear; [exact HC3|].
    eapply sim_nextscope; [exact Ho0|exact HC4|]. fold p5. intros w2 e1 Ho1.
    eapply (sim_map _ _ _ (fun w cm => P w (breakable A cm))); [|intros w' cm c Hc; apply reach_now; exact Hc].
    eapply rounds_sim with (Inv := RoundFor d (rv k) n p5 st g e rt x).
    - intros b w3 c [_ H]. eapply round_live; exact H.
    - clear w1 g1 x1 F1 Q1 w2 e1 Ho1. intros [v e1] w1 c [Ho1 HR]. cbn [fst snd] in *.
      destruct HR as (g1 & x1 & -> & F1 & Q1 & V1). rewrite (step_stub _ _ _ HC5 eq_refl).
      assert (BODY : forall w1 g1 x1, frame n (rv k) g g1 -> quiet x x1 -> (forall y, rv k = Some y -> g1 y = v) ->
        sim fuel (K (At A (p5 + 1 + length match test with Some e => [IEval e (n + 4); IJumpF (n + 4) (n + 2)] | None => [] end))
                   (sc d st) g1 e1 rt x1 w1)
          (match exec A fuel e1 [] s w1 with
           | None => None
           | Some (w1, c) =>
               if loop_continues A c ls then
                 let (w2, env') := fresh_copy A d e1 w1 in
                 opt_eval A stp env' w2 (fun w e => Some (w, inr (Thr A e)))
                   (fun w _ => Some (w, inl (carry A c v, env')))
               else Some (w1, inr (update_empty A c (Some v)))
           end)
          (fun w' r c' => match r with inl b' => RoundFor d (rv k) n p5 st g e rt x b' w' c' | inr cm => P w' (breakable A cm) c' end)).
      { clear w1 g1 x1 F1 Q1 V1. intros w1 g1 x1 F1 Q1 V1.
        assert (Hx1 : calms s x1) by (eapply calms_sub; [|exact Hx|exact Q1]; sub).
        match goal with |- sim _ (K (At A ?X) _ _ _ _ _ _) _ _ => set (p7 := X) in * end.
        pose proof (loop_body s k (one d) ls seen fuel (n + 2) (n + 1) (n + 6) c1 n1 p7 (p11 + 1) p8 (sc d st) g1 e1 rt x1 w1
                IH E1 (wf_more _ _ _ _ (n + 6) HW ltac:(lia)) HF1 HC7 Hx1 HC12 HC8) as HB.
        destruct (exec A fuel e1 [] s w1) as [[w2 cm]|]; [|exact HB]. cbn [sim] in HB |- *.
        destruct (loop_continues A cm ls) eqn:HLC.
        - assert (HA : reach (K (At A p7) (sc d st) g1 e1 rt x1 w1)
                  (Round (rv k) n (p8 + 1) (sc d st) g e1 rt x (carry A cm v) w2)).
          { eapply reach_bind; [exact HB|]. intros c Hc.
            eapply reach_bind; [eapply post_pass; [exact HC8|exact Hc]|]. clear c Hc. intros c Hc. apply reach_now.
            eapply loop_again in Hc; [|reflexivity|exact HLC].
            eapply round_next; [exact Hc|..]; auto. lia. }
          eapply sim_bind; [exact HA|]. intros c (g2 & x2 & -> & F2 & Q2 & V2).
          eapply sim_nextscope; [exact Ho1|exact HC9|]. intros w3 e2 Ho2.
          assert (BACK : forall w3 g3 x3, frame n (rv k) g g3 -> quiet x x3 -> (forall y, rv k = Some y -> g3 y = carry A cm v) ->
             reach (K (At A p11) (sc d st) g3 e2 rt x3 w3) (RoundFor d (rv k) n p5 st g e rt x (carry A cm v, e2) w3)).
          { intros w4 g3 x3 F3 Q3 V3. apply reach_step. rewrite (step_jump _ _ _ HC11 HC5). apply reach_now.
            split; [exact Ho2|]. exists g3, x3. auto. }
          unfold opt_eval. destruct stp as [se|].
          + cbn [length] in *. apply at_cons in HC10. destruct HC10 as [HC10 _].
            eapply sim_eval; [exact HC10| |intros w4 b; apply THR; auto].
            intros w4 b x3 Q3. apply BACK.
            * eapply frame_trans; [apply le_n|exact F2|apply frame_upd; left; lia].
            * eapply quiet_trans; eauto.
            * intros y Hy. pose proof (wf_rv _ _ _ _ HW y Hy). rewrite upd_other by lia. auto.
          + assert (Ep : p11 = p8 + 1 + length (next_scope d)) by (unfold p11; cbn [length]; lia).
            rewrite <- Ep. apply BACK; auto.
        - eapply reach_bind; [exact HB|]. intros c Hc.
          eapply (OUT (n + 6) n1 (returns_last q s) g1 e1 x1 w1); [exact Ho1|lia|lia|exact HL1|exact F1|exact Q1| | |apply update_some_brk].
          + intros y Hy. cbn. apply V1, Hy.
          + eapply loop_leave with (pe' := pe) in Hc; [|exact HLC].
            eapply (post_weak _ _ _ _ _ _ _ _ _ _ _ (n + 6) n1 (returns_last q s)); [..|exact Hc]; wk. }
      unfold opt_eval at 1. destruct test as [te|].
      + cbn [length] in *. apply at_cons in HC6. destruct HC6 as [HC6 HC6']. apply at_cons in HC6'. destruct HC6' as [HC6' _].
        eapply sim_eval; [exact HC6| |intros w4 b; apply THR; auto].
        intros w4 b x3 Q3. apply sim_step. rewrite (step_jumpf _ _ _ _ HC6' HC12). rewrite upd_same.
        assert (F3 : frame n (rv k) g (upd A g1 (n + 4) b))
          by (eapply frame_trans; [apply le_n|exact F1|apply frame_upd; left; lia]).
        assert (Q3' : quiet x x3) by (eapply quiet_trans; eauto).
        assert (V3 : forall y, rv k = Some y -> upd A g1 (n + 4) b y = v).
        { intros y Hy. pose proof (wf_rv _ _ _ _ HW y Hy). rewrite upd_other by lia. auto. }
        destruct (truthy A b).
        * replace (p5 + 1 + 1 + 1) with (p5 + 1 + 2) by lia. apply BODY; auto.
        * apply reach_step. rewrite (step_stub _ _ _ HC12 eq_refl).
          pose proof (OUT n n1 true (upd A g1 (n + 4) b) e1 x3 w4 Ho1 (le_n _) (le_n _) (fun _ => eq_refl) F3 Q3'
                   (Some v) w4 (Normal A None)) as HO.
          apply HO; [exact V3| |discriminate].
          exists (upd A g1 (n + 4) b), x3. cbn. unfold pe. auto using frame_refl, quiet_refl.
      + cbn [length] in *. rewrite Nat.add_0_r in BODY. apply BODY; auto.
    - apply le_n.
    - split; [exact Ho1|]. exists (clr (rv k) g1), x1. cbn [fst snd]. repeat split; auto.
      + eapply frame_trans; [apply le_n|exact F1|apply clr_frame].
      + apply clr_val. }
  unfold opt_eval at 1. destruct init as [ie|].
  - cbn [length] in *. apply at_cons in HC2. destruct HC2 as [HC2 _].
    eapply sim_eval; [exact HC2| |intros w4 b; apply THR; auto using frame_refl].
    intros w4 b x3 Q3. apply REST; [apply frame_upd; left; lia|exact Q3].
  - cbn [length] in *. rewrite Nat.add_0_r in REST. apply REST; auto using frame_refl, quiet_refl.
Qed.

Lemma vbool_eval b : truthy A (vbool A b) = b.
Proof. apply truthy_bool. Qed.

Lemma frame_upd2 n r g y v y' v' : n <= y -> n <= y' -> frame n r g (upd A (upd A g y v) y' v').
Proof. intros L L' z Hz Hr. rewrite !upd_other by lia. reflexivity. Qed.

Lemma iter_end bs cs d r n n' ls pe last st g e rt x w0 w cm c v :
  Post bs cs d r n n' (shift (owns true ls pe)) nobody (pe + 1) last (K w0 st g e rt x w) v cm c ->
  cm <> Brk A None None ->
  Post bs cs d r n n' (own ls (pe + 1)) nobody (pe + 1) last (K w0 st g e rt x w) v (breakable A cm) c.
Proof.
  intros H NB. apply post_breakable; [|exact NB]. eapply post_ext; [| |exact H]; [|reflexivity].
  intros t. unfold shift. destruct t as [y|]; cbn; [destruct (existsb (Nat.eqb y) ls)|]; reflexivity.
Qed.

Lemma close_brk cl it cm w : cm <> Brk A None None -> snd (iterator_close A cl it cm w) <> Brk A None None.
Proof.
  intros H. unfold iterator_close. destruct cl; [|exact H].
  destruct (w_close A it w) as [[w1 [u|u]] o], cm; cbn; try discriminate; exact H.
Qed.

Lemma sim_forof cl d ev b s : SimS s -> SimS (ForOf cl d ev b s).
Proof.
  intros IH fuel ls seen k n cs n' pc st g e rt x w H HW HF HC Hx. cbn [gen] in H. cbv zeta in H.
  pose proof (fit_sub _ _ _ HF) as HF1.
  destruct (gen [] _ s (n + 5)) as [[c1 n1]|] eqn:E1; [|discriminate]. injection H as <- <-.
  pose proof (gen_le _ _ _ _ _ _ E1) as L1.
  apply at_app in HC. destruct HC as [HC1 HC].
  apply at_cons in HC. destruct HC as [HC2 HC].
  apply at_app in HC. destruct HC as [HC3 HC].
  apply at_cons in HC. destruct HC as [HC4 HC].
  apply at_app in HC. destruct HC as [HC5 HC].
  apply at_cons in HC. destruct HC as [HC6 HC].
  apply at_cons in HC. destruct HC as [HC7 HC].
  apply at_cons in HC. destruct HC as [HC8 HC].
  apply at_app in HC. destruct HC as [HC9 HC].
  apply at_cons in HC. destruct HC as [HC10 HC].
  apply at_app in HC. destruct HC as [HC11 HC].
  apply at_app in HC. destruct HC as [HC12 HC].
  apply at_cons in HC. destruct HC as [HC13 HC].
  apply at_cons in HC. destruct HC as [HC14 HC].
  apply at_cons in HC. destruct HC as [HC15 _].
  assert (HL1 : returns_last q (ForOf cl d ev b s) = true -> returns_last q s = true) by sub.
  assert (HL2 : returns_last q (ForOf cl d ev b s) = true -> cl = false \/ q = true \/ no_return s = true).
  { intros HH. apply every_here in HH. destruct cl; [|auto]. apply orb_true_iff in HH. tauto. }
  match type of HC6 with nth_error _ ?X = _ => set (p6 := X) in * end.
  match type of HC12 with at_code ?X _ => set (p12 := X) in * end.
  match type of HC14 with nth_error _ ?X = _ => set (p14 := X) in * end.
  replace (pc + length _) with (p14 + 2).
  2: { unfold p14, p12, p6. len. }
  set (last := returns_last q (ForOf cl d ev b s)) in *.
  set (c0 := K (At A pc) st g e rt x w).
  set (P := Post (brk k) (con k) (dep k) (rv k) n n1 (own ls (p14 + 2)) nobody (p14 + 2) last c0).
  assert (WFb := wf_brk _ _ _ _ HW). assert (WFc := wf_con _ _ _ _ HW).
  assert (Hcl : cl = true -> calm x /\ nc = false).
  { intros ->. split; [apply Hx; reflexivity|]. destruct nc eqn:En; [|reflexivity].
    pose proof (fit_closing _ _ _ HF En). discriminate. }
  cbn [exec].
  eapply sim_scope; [exact HC1|]. intros w0 e0 Ho0.
  eapply sim_eval; [exact HC2| |].
  2: { intros w1 v. apply (throw_scope d XErr st g e e0); [exact Ho0|]. apply reach_now. apply post_throw, frame_refl. }
  intros w1 v x1 Q1.
  assert (HR : reach (K (At A (pc + length (scope d) + 1)) (sc d st) (upd A g n v) e0 rt x1 w1)
     (fun c => c = K (At A (pc + length (scope d) + 1 + length (unscope d))) st (upd A g n v) e rt x1 w1)).
  { destruct d as [d|]; cbn [unscope length sc opened] in *.
    - destruct Ho0 as [y ->]. apply at_cons in HC3. destruct HC3 as [HC3 _]. apply reach_step. unfold step. cbn [md].
      rewrite HC3. apply reach_now. reflexivity.
    - subst e0. rewrite !Nat.add_0_r. apply reach_now. reflexivity. }
  eapply sim_bind; [exact HR|]. clear HR. intros c ->.
  set (g1 := upd A g n v).
  assert (Eg : g1 n = v) by apply upd_same. rewrite <- Eg. clear Eg.
  assert (Fg1 : frame n (rv k) g g1) by (apply frame_upd; auto).
  eapply sim_open; [exact HC4| |intros w2 u; apply reach_now; apply post_throw; exact Fg1].
  intros w2 it x2 Q2. eapply sim_clear; [exact HC5|]. fold p6.
  apply sim_step. rewrite (step_stub _ _ _ HC6 eq_refl).
  set (g2 := clr (rv k) g1).
  assert (Fg2 : frame n (rv k) g g2) by (eapply frame_trans; [apply le_n|exact Fg1|apply clr_frame]).
  assert (Q2' : quiet x x2) by (eapply quiet_trans; eauto).
  eapply (sim_map _ _ _ (fun w cm => P w (breakable A cm))); [|intros w' cm c Hc; apply reach_now; exact Hc].
  set (stI := SIter A cl it false :: st).
  eapply rounds_sim with (Inv := Round (rv k) n (p6 + 1) stI g e rt x); [apply round_live| |apply le_n|].
  2: { exists g2, x2. repeat split; auto. unfold g2. apply clr_val. }
  clear v g1 Fg1 g2 Fg2 Q1 Q2 Q2' x1 x2 w1 w2. intros v w3 c (g1 & x1 & -> & F1 & Q1 & V1).
  eapply sim_next_step; [exact HC7| | |].
  3: { intros w4 u. apply reach_step, reach_now. unfold P. cbn [breakable Post]. exists g1, rt.
       split; [destruct cl; reflexivity|]. cbn. auto. }
  2: { intros w4 x2 Q2. apply sim_step. rewrite (step_jumpf _ _ _ _ HC8 HC14). rewrite upd_same, vbool_eval.
       apply reach_step. rewrite (step_stub _ _ _ HC14 eq_refl). apply reach_step. unfold step. cbn [md].
       rewrite HC15. apply reach_now. unfold P. cbn [breakable Post].
       exists (upd A (upd A g1 (n + 4) (undef A)) (n + 3) (vbool A false)), x2.
       replace (p14 + 2) with (p14 + 1 + 1) by lia.
       split; [destruct cl; reflexivity|]. cbn. repeat split.
       - eapply frame_trans; [apply le_n|exact F1|]. apply frame_upd2; lia.
       - eapply quiet_trans; eauto.
       - intros y Hy. pose proof (wf_rv _ _ _ _ HW y Hy). rewrite !upd_other by lia. auto. }
  intros w4 u x2 Q2. apply sim_step. rewrite (step_jumpf _ _ _ _ HC8 HC14). rewrite upd_same, vbool_eval.
  set (g2 := upd A (upd A g1 (n + 4) u) (n + 3) (vbool A true)).
  assert (F2 : frame n (rv k) g g2).
  { eapply frame_trans; [apply le_n|exact F1|]. apply frame_upd2; lia. }
  assert (Q2' : quiet x x2) by (eapply quiet_trans; eauto).
  assert (V2 : forall y, rv k = Some y -> g2 y = v).
  { intros y Hy. pose proof (wf_rv _ _ _ _ HW y Hy). unfold g2. rewrite !upd_other by lia. auto. }
  assert (Eg2 : g2 (n + 4) = u) by (unfold g2; rewrite upd_other by lia; apply upd_same).
  (* leaving the loop closes the iterator *)
  assert (OUT : forall w5 cm c,
     Post (brk k) (con k) (dep k + 1) (rv k) n n1 (owns true ls (p14 + 1)) nobody (p14 + 1) last
          (K (At A pc) stI g e rt x w) w5 cm c ->
     match cm with Normal _ _ => False | _ => True end ->
     cm <> Brk A None None ->
     (last = true -> cl = false \/ q = true \/ match cm with Ret _ _ => False | _ => True end) ->
     let (w6, cm') := iterator_close A cl it cm w5 in reach c (P w6 (breakable A cm'))).
  { intros w5 cm c Hc NN NB HLL.
    pose proof (close_brk cl it cm w5 NB) as NB'.
    pose proof (post_close (brk k) (con k) (dep k) (rv k) n n1 (owns true ls (p14 + 1)) (p14 + 1) (p14 + 1 + 1) last last cl it
                  (At A pc) st g e rt x w WFb WFc Hcl
                  (fun t p E => eq_ind_r (fun p => nth_error code p = Some IPop) HC15 (owns_pop _ _ _ _ _ E))
                  w5 cm c Hc NN (fun L => conj L (HLL L)) (At A pc) w) as HP.
    destruct (iterator_close A cl it cm w5) as [w6 cm']. cbn [snd] in NB'.
    eapply reach_bind; [exact HP|]. intros c' Hc'. apply reach_now. unfold P.
    replace (p14 + 2) with (p14 + 1 + 1) by lia. eapply iter_end; [exact Hc'|exact NB']. }
  eapply sim_scope; [exact HC9|]. intros w5 e1 Ho1.
  rewrite <- Eg2 at 1.
  eapply sim_bindop; [exact HC10| |].
  2: { intros w6 z. specialize (OUT w6 (Thr A z) (K (Un A XErr) stI g2 e rt (true, z) w6)).
       destruct (iterator_close A cl it (Thr A z) w6) as [w7 cm'].
       eapply throw_scope; [exact Ho1|]. apply OUT; [apply post_throw; exact F2|exact I|discriminate|auto]. }
  intros w6 _ x3 Q3.
  assert (Q3' : quiet x x3) by (eapply quiet_trans; eauto).
  assert (Hx1 : calms s x3) by (eapply calms_sub; [|exact Hx|exact Q3']; sub).
  specialize (IH fuel [] seen (enter_loop k 1 (one d) ls (n + 2) (n + 1)) (n + 5) c1 n1 _ (sc d stI) g2 e1 rt x3 w6 E1
                (wf_loop _ _ _ _ (n + 5) 1 (one d) (n + 2) (n + 1) HW ltac:(lia)) HF1 HC11 Hx1).
  fold p12 in IH.
  match type of IH with sim _ ?C _ _ => set (cb := C) in * end.
  assert (HB : sim fuel cb (exec A fuel e1 [] s w6)
     (Post (brk k) (con k) (dep k + 1) (rv k) (n + 5) n1 (owns true ls (p14 + 1)) (owns true ls (p6 + 1)) (p6 + 1)
        (returns_last q s) (K (At A pc) stI g2 e rt x3 w))).
  { eapply sim_post; [exact IH|]. intros w7 cm c Hc. cbn [enter_loop brk con dep rv] in Hc.
    eapply (post_ext _ _ _ _ _ _ _ _ _ _ _ nobody nobody) in Hc; [|intros; apply own_nil|reflexivity].
    eapply reach_bind;
      [eapply (post_unscope_opt d _ _ (dep k + 1)) with (ob := nobody) (oc := nobody) (ob' := nobody) (oc' := nobody) (m' := At A pc) (w0' := w);
        [exact Ho1| | |exact HC12|discriminate|discriminate|reflexivity|reflexivity|exact Hc]|].
    - constructor; [cbn; lia|]. eapply deps_le; [|exact WFb]. lia.
    - constructor; [cbn; lia|]. eapply deps_le; [|exact WFc]. lia.
    - clear c Hc. intros c Hc.
      eapply reach_bind; [eapply (post_land_brk _ (brk k)) with (p := p14); [..|exact Hc]; cbn; auto|].
      clear c Hc. intros c Hc. cbn [j_plain j_names] in Hc.
      eapply reach_bind; [eapply (post_land_con _ _ (con k)) with (p := p6); [..|exact Hc]; cbn; auto|].
      clear c Hc. intros c Hc. cbn [j_plain j_names] in Hc.
      rewrite unscope_len in HC13. eapply post_jump; [exact HC13|exact HC6|exact Hc]. }
  clear IH.
  destruct (exec A fuel e1 [] s w6) as [[w7 cm]|] eqn:EX; [|exact HB]. cbn [sim] in HB.
  destruct (loop_continues A cm ls) eqn:HLC.
  - eapply reach_bind; [exact HB|]. intros c Hc. apply reach_now.
    eapply loop_again in Hc; [|reflexivity|exact HLC].
    eapply round_next; [exact Hc|..]; auto. lia.
  - specialize (OUT w7 (update_empty A cm (Some v))).
    destruct (iterator_close A cl it (update_empty A cm (Some v)) w7) as [w8 cm'].
    eapply reach_bind; [exact HB|]. intros c Hc. apply OUT.
    + eapply (loop_done _ _ _ _ _ _ _ _ _ _ _ _ (n + 5) n1 (returns_last q s)); [..|exact Hc|exact HLC]; wk; lia.
    + destruct cm; cbn in HLC |- *; auto. discriminate.
    + apply update_some_brk.
    + intros L. destruct (HL2 L) as [L'|[L'|L']]; auto. right; right.
      pose proof (no_return_ret A fuel s e1 [] w6 w7 cm EX L') as NR.
      destruct cm; cbn in *; auto.
Qed.

(** ** Switch *)

Fixpoint AllC (P : stmt -> Prop) (cs : cases) : Prop :=
  match cs with
  | CNil => True
  | CCons _ s r => P s /\ AllC P r
  end.

Lemma allc_impl (P Q : stmt -> Prop) cs : (forall s, P s -> Q s) -> AllC P cs -> AllC Q cs.
Proof. intros H. induction cs as [|t s r IH]; cbn; [auto|]. intros [H1 H2]; auto. Qed.

Lemma allc_all (P : stmt -> Prop) cs : (forall s, P s) -> AllC P cs.
Proof. intros H. induction cs as [|t s r IH]; cbn; auto. Qed.

Lemma allc_every f cs : every_case f cs = true -> AllC (fun s => every f s = true) cs.
Proof.
  induction cs as [|t s r IH]; cbn; [auto|]. intros H. apply andb_prop in H. destruct H; auto.
Qed.

Lemma allc_distinct seen cs : distinct_cases seen cs = true -> AllC (fun s => distinct seen s = true) cs.
Proof.
  induction cs as [|t s r IH]; cbn; [auto|]. intros H. apply andb_prop in H. destruct H; auto.
Qed.

Lemma allc_fit seen r cs :
  AllC (fun s => distinct seen s = true) cs -> AllC (fun s => sound q s = true) cs ->
  (r <> None -> AllC (fun s => no_catch s = true) cs) ->
  (nc = true -> AllC (fun s => no_closing s = true) cs) -> AllC (Fit seen r) cs.
Proof.
  induction cs as [|t s rr IH]; cbn; [auto|]. intros [H1 H1'] [H2 H2'] H3 H4.
  split; [constructor; auto; intros N; [apply (H3 N)|apply (H4 N)]|].
  apply IH; auto; intros N; [apply (H3 N)|apply (H4 N)].
Qed.

Lemma fit_switch seen r d ev cs : Fit seen r (Switch d ev cs) -> AllC (Fit seen r) cs.
Proof.
  intros [H1 H2 H3 H4]. apply allc_fit.
  - apply allc_distinct. exact H1.
  - apply every_sub in H2. apply allc_every in H2. exact H2.
  - intros N. specialize (H3 N). apply every_sub in H3. apply allc_every in H3. exact H3.
  - intros N. specialize (H4 N). apply every_sub in H4. apply allc_every in H4. exact H4.
Qed.

Definition SimC (cs : cases) : Prop :=
  forall fuel seen k l n c n' pc last,
  gen_cases k cs l n = Some (c, n') -> Wf [] seen k n -> AllC (Fit seen (rv k)) cs ->
  at_code pc c -> l + cases_len cs <= n ->
  (last = true -> AllC (fun s => returns_last q s = true) cs) ->
  forall i, 3 * i <= cases_len cs ->
  exists pi, (i = 0 -> pi = pc) /\ (3 * i < cases_len cs -> nth_error code pi = Some (IStub (l + 3 * i))) /\
  forall v st g e rt x w, AllC (fun s => calms s x) cs -> (forall y, rv k = Some y -> g y = v) ->
  sim fuel (K (At A pi) st g e rt x w) (exec_cases A fuel e cs i v w)
    (Post (brk k) (con k) (dep k) (rv k) n n' nobody nobody (pc + length c) last (K (At A pi) st g e rt x w)).

Lemma gen_cases_cons k t s r l n : gen_cases k (CCons t s r) l n =
  match gen [] k s n with
  | None => None
  | Some (c, n1) =>
      match gen_cases k r (l + 3) n1 with
      | None => None
      | Some (c', n2) => Some (IStub l :: c ++ c', n2)
      end
  end.
Proof. reflexivity. Qed.

Lemma sim_cnil : SimC CNil.
Proof.
  intros fuel seen k l n c n' pc last [= <- <-] HW HF HC L HL i Hi. exists pc. cbn in Hi.
  split; [auto|]. split; [cbn; lia|]. intros v st g e rt x w Hx Hv. cbn. rewrite Nat.add_0_r.
  apply reach_now. exists g, x. wk.
Qed.

Lemma quiet_calms s x x' : quiet x x' -> calms s x -> calms s x'.
Proof. intros Q H N. apply Q, H, N. Qed.

Lemma cases_update fuel e cs i v w v1 :
  match exec_cases A fuel e cs i v w with Some (w', c) => Some (w', update_empty A c v1) | None => None end
  = exec_cases A fuel e cs i v w.
Proof.
  revert i v w. induction cs as [|t s r IH]; intros i v w; [reflexivity|].
  destruct i as [|i]; [|rewrite exec_cases_skip; apply IH].
  rewrite exec_cases_here. destruct (exec A fuel e [] s w) as [[w1 cm]|]; [|reflexivity].
  destruct cm as [ov|t1 [ov|]|t1 [ov|]|v0|v0]; try reflexivity. apply IH.
Qed.

Lemma sim_ccons t s r : SimS s -> SimC r -> SimC (CCons t s r).
Proof.
  intros IHs IHr fuel seen k l n c n' pc last H HW HF HC L HL i Hi.
  rewrite gen_cases_cons in H.
  destruct (gen [] k s n) as [[c1 n1]|] eqn:E1; [|discriminate].
  destruct (gen_cases k r (l + 3) n1) as [[c2 n2]|] eqn:E2; [|discriminate]. injection H as <- <-.
  cbn [AllC cases_len] in *. destruct HF as [HF1 HF2].
  pose proof (gen_le _ _ _ _ _ _ E1) as L1. pose proof (gen_cases_le _ _ _ _ _ _ E2 ltac:(lia)) as L2.
  apply at_cons in HC. destruct HC as [HC1 HC]. apply at_app in HC. destruct HC as [HC2 HC3].
  assert (HLr : last = true -> AllC (fun s => returns_last q s = true) r) by (intros N; apply (HL N)).
  pose proof (IHr fuel seen k (l + 3) n1 c2 n2 (pc + 1 + length c1) last E2 (wf_sub _ _ _ _ n1 HW L1) HF2 HC3 ltac:(lia) HLr) as IH.
  replace (pc + length (IStub l :: c1 ++ c2)) with (pc + 1 + length c1 + length c2) by len.
  destruct i as [|i].
  - exists pc. split; [auto|]. split; [intros _; rewrite Nat.mul_0_r, Nat.add_0_r; exact HC1|].
    intros v st g e rt x w [Hx1 Hx2] Hv. rewrite exec_cases_here. apply sim_step. rewrite (step_stub _ _ _ HC1 eq_refl).
    specialize (IHs fuel [] seen k n c1 n1 (pc + 1) st g e rt x w E1 HW HF1 HC2 Hx1).
    assert (IHs' : sim fuel (K (At A (pc + 1)) st g e rt x w) (exec A fuel e [] s w)
              (Post (brk k) (con k) (dep k) (rv k) n n1 nobody nobody (pc + 1 + length c1) last (K (At A pc) st g e rt x w))).
    { eapply sim_post; [exact IHs|]. intros w1 cm c Hc. apply reach_now.
      eapply (post_ext _ _ _ _ _ _ _ _ _ _ _ nobody nobody) in Hc; [|intros; apply own_nil|reflexivity].
      eapply (post_weak _ _ _ _ _ _ _ _ _ _ _ n n1 (returns_last q s)); [..|exact Hc]; wk.
      intros N. apply (HL N). }
    clear IHs. destruct (exec A fuel e [] s w) as [[w1 cm]|]; [|exact IHs']. cbn [sim] in IHs'.
    assert (ESC : match cm with Normal _ _ => True | _ =>
        reach (K (At A (pc + 1)) st g e rt x w)
         (Post (brk k) (con k) (dep k) (rv k) n n2 nobody nobody (pc + 1 + length c1 + length c2) last (K (At A pc) st g e rt x w)
            w1 (update_empty A cm (Some v))) end).
    { assert (G : match cm with Normal _ _ => False | _ => True end -> reach (K (At A (pc + 1)) st g e rt x w)
         (Post (brk k) (con k) (dep k) (rv k) n n2 nobody nobody (pc + 1 + length c1 + length c2) last (K (At A pc) st g e rt x w)
            w1 (update_empty A cm (Some v)))).
      { intros NN. eapply reach_bind; [exact IHs'|]. intros c Hc. apply reach_now.
        assert (Hc' : Post (brk k) (con k) (dep k) (rv k) n n1 nobody nobody (pc + 1 + length c1 + length c2) last (K (At A pc) st g e rt x w) w1 cm c)
          by (destruct cm; [destruct NN|..]; exact Hc).
        eapply (post_shift _ _ _ _ _ _ _ _ _ _ _ n n1 last); [..|exact Hc']; wk. }
      destruct cm; try exact I; apply G; exact I. }
    destruct cm as [v1|t1 v1|t1 v1|v1|v1]; try exact ESC. clear ESC.
    eapply sim_bind; [exact IHs'|]. intros c (g1 & x1 & -> & F1 & Q1 & V1). cbn [stk regs env retv er] in *.
    destruct (IH 0 ltac:(lia)) as (pi & Hpi & _ & HR). rewrite (Hpi eq_refl) in HR.
    rewrite <- (cases_update fuel e r 0 _ w1 v1).
    eapply sim_map; [apply HR|].
    + eapply allc_impl; [|exact Hx2]. intros s0. apply quiet_calms. exact Q1.
    + intros y Hy. rewrite (V1 y Hy), (Hv y Hy). unfold vof. reflexivity.
    + intros w2 cm2 c Hc. apply reach_now.
      eapply (post_shift _ _ _ _ _ _ _ _ _ _ _ n1 n2 last); [..|exact Hc]; wk.
  - destruct (IH i ltac:(lia)) as (pi & _ & Hst & HR). exists pi. split; [discriminate|]. split.
    + intros Hl. replace (l + 3 * S i) with (l + 3 + 3 * i) by lia. apply Hst. lia.
    + intros v st g e rt x w [Hx1 Hx2] Hv. rewrite exec_cases_skip.
      eapply sim_post; [apply HR; [exact Hx2|exact Hv]|]. intros w2 cm2 c Hc. apply reach_now.
      eapply (post_weak _ _ _ _ _ _ _ _ _ _ _ n1 n2 last); [..|exact Hc]; wk.
Qed.

Lemma some_ok {B R : Type} (a : ans W V B) (thr : W -> V -> R) (f : W -> B -> R) :
  Some (ok A a thr f) = ok A a (fun w e => Some (thr w e)) (fun w b => Some (f w b)).
Proof. destruct a as [[w [b|b]] o]; reflexivity. Qed.

Lemma select_sim N rid cs : forall l p st g e rt x w v,
  at_code p (tests rid cs l) -> g rid = v -> rid < l ->
  (forall i, 3 * i < cases_len cs -> exists pi, nth_error code pi = Some (IStub (l + 3 * i))) ->
  sim N (K (At A p) st g e rt x w) (Some (select A v e cs w))
    (fun w' o c => exists g' x', (forall z, z < l -> g' z = g z) /\ quiet x x' /\
       match o with
       | inl None => c = K (At A (p + length (tests rid cs l))) st g' e rt x' w'
       | inl (Some i) => 3 * i < cases_len cs /\
           forall pi, nth_error code pi = Some (IStub (l + 3 * i)) -> c = K (At A pi) st g' e rt x' w'
       | inr er => c = K (Un A XErr) st g' e rt (true, er) w'
       end).
Proof.
  induction cs as [|t s r IH]; intros l p st g e rt x w v HC Hg Hr HP.
  - cbn. rewrite Nat.add_0_r. apply reach_now. exists g, x. auto using quiet_refl.
  - assert (REST : forall p1 g1 x1 w1, at_code p1 (tests rid r (l + 3)) -> (forall z, z < l -> g1 z = g z) -> quiet x x1 ->
       p1 + length (tests rid r (l + 3)) = p + length (tests rid (CCons t s r) l) ->
       sim N (K (At A p1) st g1 e rt x1 w1)
         (Some (match select A v e r w1 with
                | (w', inl o) => (w', inl (option_map S o))
                | (w', inr e) => (w', inr e) end))
         (fun w' o c => exists g' x', (forall z, z < l -> g' z = g z) /\ quiet x x' /\
            match o with
            | inl None => c = K (At A (p + length (tests rid (CCons t s r) l))) st g' e rt x' w'
            | inl (Some i) => 3 * i < cases_len (CCons t s r) /\
                forall pi, nth_error code pi = Some (IStub (l + 3 * i)) -> c = K (At A pi) st g' e rt x' w'
            | inr er => c = K (Un A XErr) st g' e rt (true, er) w'
            end)).
    { intros p1 g1 x1 w1 HC1 Hg1 Q1 EP.
      assert (HS := IH (l + 3) p1 st g1 e rt x1 w1 v HC1). rewrite (Hg1 rid Hr) in HS.
      specialize (HS Hg ltac:(lia)).
      assert (HP' : forall i, 3 * i < cases_len r -> exists pi, nth_error code pi = Some (IStub (l + 3 + 3 * i))).
      { intros i Hi. destruct (HP (S i) ltac:(cbn [cases_len]; lia)) as [pi Hpi]. exists pi.
        replace (l + 3 + 3 * i) with (l + 3 * S i) by lia. exact Hpi. }
      specialize (HS HP'). destruct (select A v e r w1) as [w' [o|er]]; cbn [sim] in HS |- *.
      - eapply reach_bind; [exact HS|]. intros c (g' & x' & G & Q & HO). apply reach_now.
        exists g', x'. split; [intros z Hz; rewrite G by lia; auto|]. split; [eapply quiet_trans; eauto|].
        destruct o as [i|]; cbn [option_map].
        + destruct HO as [Hi HO]. split; [cbn [cases_len]; lia|]. intros pi Hpi. apply HO.
          replace (l + 3 + 3 * i) with (l + 3 * S i) by lia. exact Hpi.
        + rewrite <- EP. exact HO.
      - eapply reach_bind; [exact HS|]. intros c (g' & x' & G & Q & HO). apply reach_now.
        exists g', x'. split; [intros z Hz; rewrite G by lia; auto|]. split; [eapply quiet_trans; eauto|]. exact HO. }
    destruct t as [ev|].
    + cbn [tests app] in HC. apply at_cons in HC. destruct HC as [HC1 HC]. apply at_cons in HC. destruct HC as [HC2 HC].
      apply at_cons in HC. destruct HC as [HC3 HC].
      cbn [select]. rewrite some_ok.
      eapply sim_eval; [exact HC1| |].
      2: { intros w' er0. apply reach_now. exists g, x. auto using quiet_refl. }
      intros w1 u x1 Q1. apply sim_step. unfold step. cbn [md]. rewrite HC2. cbn [exec_instr].
      unfold goto, set_reg. cbn [md regs env retv er wd stk]. rewrite upd_same, (upd_other g) by lia. rewrite Hg.
      destruct (HP 0 ltac:(cbn [cases_len]; lia)) as [p0 Hp0]. rewrite Nat.mul_0_r, Nat.add_0_r in Hp0.
      apply sim_step. rewrite (step_jumpt _ _ _ _ HC3 Hp0). rewrite upd_same, vbool_eval.
      destruct (same A v u).
      * apply reach_now. eexists _, x1. split; [|split; [exact Q1|split; [cbn [cases_len]; lia|]]].
        2: { intros pi Hpi. rewrite Nat.mul_0_r, Nat.add_0_r in Hpi.
             pose proof (find_label_at code Hnodup _ _ Hp0). pose proof (find_label_at code Hnodup _ _ Hpi).
             replace pi with p0 by congruence. reflexivity. }
        intros z Hz. rewrite !upd_other by lia. reflexivity.
      * apply REST; [exact HC| |exact Q1|cbn [tests app length]; lia].
        intros z Hz. rewrite !upd_other by lia. reflexivity.
    + cbn [tests select] in *. apply REST; auto using quiet_refl.
Qed.

Lemma default_label cs : forall l, default_of cs l = option_map (fun i => l + 3 * i) (default_index cs).
Proof.
  induction cs as [|[ev|] s r IH]; intros l; cbn [default_of default_index].
  - reflexivity.
  - rewrite IH. destruct (default_index r) as [i|]; cbn [option_map]; [f_equal; lia|reflexivity].
  - cbn. rewrite Nat.add_0_r. reflexivity.
Qed.

Lemma default_in cs i : default_index cs = Some i -> 3 * i < cases_len cs.
Proof.
  revert i. induction cs as [|[ev|] s r IH]; intros i; cbn [cases_len default_index]; [discriminate| |].
  - destruct (default_index r) as [j|]; [|discriminate]. intros [= <-]. specialize (IH j eq_refl). lia.
  - intros [= <-]. lia.
Qed.

Lemma gen_switch ls k d ev cs n : gen ls k (Switch d ev cs) n =
  match gen_cases (enter k (one d) ls true (n + 1)) cs (n + 2) (n + 2 + cases_len cs) with
  | None => None
  | Some (c, n1) =>
      Some ([IEval ev n] ++ clear (rv k) ++ scope d
            ++ tests n cs (n + 2)
            ++ [IJump (match default_of cs (n + 2) with Some l => l | None => n + 1 end)]
            ++ c ++ [IStub (n + 1)] ++ unscope d, n1)
  end.
Proof. reflexivity. Qed.

Lemma sim_switch d ev cs0 : SimC cs0 -> SimS (Switch d ev cs0).
Proof.
  intros IH fuel ls seen k n cs n' pc st g e rt x w H HW HF HC Hx. rewrite gen_switch in H.
  pose proof (fit_switch _ _ _ _ _ HF) as HF1.
  destruct (gen_cases _ cs0 _ _) as [[c1 n1]|] eqn:E1; [|discriminate]. injection H as <- <-.
  pose proof (gen_cases_le _ _ _ _ _ _ E1 ltac:(lia)) as L1.
  apply at_cons in HC. destruct HC as [HC1 HC].
  apply at_app in HC. destruct HC as [HC2 HC].
  apply at_app in HC. destruct HC as [HC3 HC].
  apply at_app in HC. destruct HC as [HC4 HC].
  apply at_cons in HC. destruct HC as [HC5 HC].
  apply at_app in HC. destruct HC as [HC6 HC].
  apply at_cons in HC. destruct HC as [HC7 HC8].
  match type of HC4 with at_code ?X _ => set (p4 := X) in * end.
  match type of HC6 with at_code ?X _ => set (p6 := X) in * end.
  match type of HC7 with nth_error _ ?X = _ => set (p7 := X) in * end.
  replace (pc + length _) with (p7 + 1 + one d).
  2: { rewrite <- (unscope_len d). unfold p7, p6, p4. len. }
  set (last := returns_last q (Switch d ev cs0)) in *.
  set (P := Post (brk k) _ _ _ _ _ _ _ _ _ _).
  assert (WFb := wf_brk _ _ _ _ HW). assert (WFc := wf_con _ _ _ _ HW).
  assert (HLc : last = true -> AllC (fun s => returns_last q s = true) cs0).
  { intros HH. apply every_sub in HH. apply allc_every in HH. exact HH. }
  pose proof (IH fuel seen (enter k (one d) ls true (n + 1)) (n + 2) (n + 2 + cases_len cs0) c1 n1 p6 last E1
               (wf_enter _ _ _ _ (n + 2 + cases_len cs0) (one d) true (n + 1) HW ltac:(lia)) HF1 HC6 ltac:(lia) HLc) as IHi. clear IH.
  rewrite exec_switch.
  eapply sim_eval; [exact HC1| |intros w1 v; apply reach_now; apply post_throw, frame_refl].
  intros w1 v x1 Q1. eapply sim_clear; [exact HC2|].
  eapply sim_scope; [exact HC3|]. fold p4. intros w2 e1 Ho.
  set (g1 := clr (rv k) (upd A g n v)).
  assert (F1 : frame n (rv k) g g1) by (eapply frame_trans; [apply le_n|apply frame_upd; left; apply le_n|apply clr_frame]).
  assert (V1 : forall y, rv k = Some y -> g1 y = undef A) by (intros y Hy; apply clr_val; exact Hy).
  assert (Eg : g1 n = v).
  { unfold g1. rewrite clr_other; [apply upd_same|]. intros Er. pose proof (wf_rv _ _ _ _ HW n Er). lia. }
  assert (HPI : forall i, 3 * i < cases_len cs0 -> exists pi, nth_error code pi = Some (IStub (n + 2 + 3 * i))).
  { intros i Hi. destruct (IHi i ltac:(lia)) as (pi & _ & Hpi & _). exists pi. auto. }
  pose proof (select_sim fuel n cs0 (n + 2) p4 (sc d st) g1 e1 rt x1 w2 v HC4 Eg ltac:(lia) HPI) as HS.
  destruct (select A v e1 cs0 w2) as [w3 o]. cbn [sim] in HS.
  destruct o as [o|er0].
  2: { eapply reach_bind; [exact HS|]. intros c (g' & x' & G & Q & ->).
       eapply throw_scope; [exact Ho|]. apply reach_now. apply post_throw.
       intros z Hz Hr. rewrite G by lia. apply F1; auto. }
  (* running the bodies from clause [i] *)
  assert (RUN : forall i g' x', 3 * i < cases_len cs0 -> (forall z, z < n + 2 -> g' z = g1 z) -> quiet x1 x' ->
     forall pi, nth_error code pi = Some (IStub (n + 2 + 3 * i)) ->
     sim fuel (K (At A pi) (sc d st) g' e1 rt x' w3)
       (match exec_cases A fuel e1 cs0 i (undef A) w3 with
        | Some (w', c) => Some (w', breakable A c)
        | None => None end) P).
  { intros i g' x' Hi G Q pi Hpi. destruct (IHi i ltac:(lia)) as (pi' & _ & Hpi' & HR).
    specialize (Hpi' Hi).
    pose proof (find_label_at code Hnodup _ _ Hpi). pose proof (find_label_at code Hnodup _ _ Hpi').
    replace pi' with pi in HR by congruence.
    rewrite <- (cases_update fuel e1 cs0 i _ w3 (Some (undef A))).
    assert (Q' : quiet x x') by (eapply quiet_trans; eauto).
    assert (F' : frame n (rv k) g g') by (intros z Hz Hr; rewrite G by lia; apply F1; auto).
    assert (V' : forall y, rv k = Some y -> g' y = undef A).
    { intros y Hy. pose proof (wf_rv _ _ _ _ HW y Hy). rewrite G by lia. auto. }
    assert (Hx' : AllC (fun s => calms s x') cs0).
    { unfold calms in Hx. destruct (no_closing (Switch d ev cs0)) eqn:En.
      - apply every_sub in En. apply allc_every in En. eapply allc_impl; [|exact En].
        intros s Hs Hn. unfold no_closing in Hn. congruence.
      - apply allc_all. intros s _. apply Q', Hx. reflexivity. }
    specialize (HR (undef A) (sc d st) g' e1 rt x' w3 Hx' V').
    assert (HX : sim fuel (K (At A pi) (sc d st) g' e1 rt x' w3) (exec_cases A fuel e1 cs0 i (undef A) w3)
        (fun w cm => P w (breakable A (update_empty A cm (Some (undef A)))))).
    { eapply sim_post; [exact HR|]. intros w4 cm c Hc. cbn [enter brk con dep rv] in Hc.
      eapply reach_bind; [eapply (post_land_brk _ (brk k)) with (p := p7); [..|exact Hc]; cbn; auto|].
      clear c Hc. intros c Hc. cbn [j_plain j_names] in Hc.
      eapply reach_bind; [eapply post_pass; [exact HC7|exact Hc]|]. clear c Hc. intros c Hc.
      eapply reach_bind; [eapply (post_unscope_opt d (brk k) (con k) (dep k)) with (m' := At A pc) (w0' := w);
         [exact Ho|exact WFb|exact WFc|exact HC8| | |apply owns_shift| |exact Hc]|].
      - intros t p Ep. apply owns_pop in Ep. subst p. exact HC8.
      - discriminate.
      - reflexivity.
      - clear c Hc. intros c Hc. apply reach_now. apply owns_own_post.
        eapply (post_shift _ _ _ _ _ _ _ _ _ _ _ (n + 2 + cases_len cs0) n1 last); [..|exact Hc]; wk; lia. }
    destruct (exec_cases A fuel e1 cs0 i (undef A) w3) as [[w4 cm]|]; exact HX. }
  destruct o as [i|].
  - eapply sim_bind; [exact HS|]. intros c (g' & x' & G & Q & Hi & HO).
    destruct (HPI i Hi) as [pi Hpi]. rewrite (HO pi Hpi). apply RUN; auto.
  - eapply sim_bind; [exact HS|]. intros c (g' & x' & G & Q & ->).
    rewrite default_label in HC5.
    destruct (default_index cs0) as [i|] eqn:Ed; cbn [option_map] in HC5.
    + apply default_in in Ed. destruct (HPI i Ed) as [pi Hpi].
      apply sim_step. rewrite (step_jump _ _ _ HC5 Hpi). apply RUN; auto.
    + apply reach_step. rewrite (step_jump _ _ _ HC5 HC7). apply reach_step. rewrite (step_stub _ _ _ HC7 eq_refl).
      assert (HA : Post (brk k) (con k) (dep k + one d) (rv k) n n1 nobody nobody (p7 + 1) last
                     (K (At A pc) (sc d st) g' e1 rt x' w) w3 (Normal A None) (K (At A (p7 + 1)) (sc d st) g' e1 rt x' w3)).
      { exists g', x'. wk. }
      eapply reach_bind; [eapply (post_unscope_opt d (brk k) (con k) (dep k)) with (ob := nobody) (oc := nobody) (ob' := nobody) (oc' := nobody) (m' := At A pc) (w0' := w);
         [exact Ho|exact WFb|exact WFc|exact HC8|discriminate|discriminate|reflexivity|reflexivity|exact HA]|].
      intros c Hc. apply reach_now. unfold P.
      change (Normal A (Some (undef A))) with (update_empty A (Normal A None) (Some (undef A))).
      eapply post_own; [apply HW|reflexivity|].
      eapply (post_shift _ _ _ _ _ _ nobody _ _ _ _ n n1 last); [..|exact Hc]; wk.
      * intros z Hz Hr. rewrite G by lia. apply F1; auto.
      * eapply quiet_trans; eauto.
      * intros y Hy. pose proof (wf_rv _ _ _ _ HW y Hy). rewrite G by lia. cbn. auto.
Qed.

(** ** Try *)

Lemma every_imp (f h : stmt -> bool) :
  (forall s, every f s = true -> h s = true) ->
  (forall s, every f s = true -> every h s = true) /\
  (forall cs, every_case f cs = true -> every_case h cs = true).
Proof.
  intros HI.
  assert (TOP : forall s, every f s = true ->
    (match s with
     | Seq a b | If _ a b => every h a && every h b
     | Block _ s | With _ _ s | Labelled _ s => every h s
     | DoWhile s _ | While _ s | For _ _ _ _ s | ForOf _ _ _ _ s => every h s
     | Switch _ _ cs => every_case h cs
     | Try b hc _ c hf g => every h b && (if hc then every h c else true) && (if hf then every h g else true)
     | _ => true
     end) = true -> every h s = true).
  { intros s Hs HT. specialize (HI s Hs). destruct s; cbn [every]; rewrite HI; exact HT. }
  apply stmt_cases_ind;
    try (intros; apply TOP; [assumption|reflexivity]);
    try (intros; apply TOP; [assumption|]; match goal with H : every f _ = true |- _ => apply every_sub in H end; auto; fail).
  - intros a IHa b IHb H. apply TOP; [exact H|]. apply every_sub in H. destruct H. rewrite IHa, IHb; auto.
  - intros ev a IHa b IHb H. apply TOP; [exact H|]. apply every_sub in H. destruct H. rewrite IHa, IHb; auto.
  - intros b IHb hc p c IHc hf g IHg H. apply TOP; [exact H|]. apply every_sub in H. destruct H as (H1 & H2 & H3).
    rewrite IHb by exact H1. destruct hc, hf; rewrite ?IHc, ?IHg; auto.
  - intros _. reflexivity.
  - intros t s IHs r IHr H. cbn [every_case] in *. apply andb_prop in H. destruct H. rewrite IHs, IHr; auto.
Qed.

Lemma no_return_last s : no_return s = true -> returns_last q s = true.
Proof.
  unfold no_return, returns_last. apply every_imp. clear s. intros s H.
  destruct s; auto.
  - destruct closing; [|reflexivity]. apply every_sub in H. unfold no_return. rewrite H. apply orb_true_r.
  - destruct hf; [|reflexivity]. apply every_sub in H. destruct H as (H1 & H2 & _). unfold no_return. rewrite H1.
    destruct hc; [rewrite H2|]; reflexivity.
Qed.

Lemma pending_weak bs cs d r n nb n' ob last c0 n1 nb1 n1' ob1 last1 c1 cm op next err g' rt' x' :
  n <= n1 -> nb <= nb1 -> n1' <= n' -> (forall t, ob t = ob1 t) -> (last = true -> last1 = true) ->
  retv A c1 = retv A c0 -> frame n r (regs A c0) (regs A c1) -> quiet (er A c0) (er A c1) ->
  (forall y, r = Some y -> regs A c1 y = regs A c0 y) ->
  pending bs cs d r n1 nb1 n1' ob1 last1 c1 cm op next err g' rt' x' ->
  pending bs cs d r n nb n' ob last c0 cm op next err g' rt' x'.
Proof.
  intros L1 L2 L3 Eo Hl Er F0 Q0 V0 [F P]. split; [eapply frame_trans; eauto|]. cbv zeta in *.
  assert (HERE : forall ov, op = ONormal /\ next = None /\ rt' = retv A c1 /\ quiet (er A c1) x'
                 /\ (forall y, r = Some y -> g' y = vof ov (regs A c1 y)) ->
                 op = ONormal /\ next = None /\ rt' = retv A c0 /\ quiet (er A c0) x'
                 /\ (forall y, r = Some y -> g' y = vof ov (regs A c0 y))).
  { intros ov (? & ? & ? & Q' & HV). repeat split; auto; [congruence|eapply quiet_trans; eauto|].
    intros y E. rewrite <- (V0 y E). auto. }
  assert (AWAY : forall js t ov, (op = ONormal /\ rt' = retv A c1 /\ quiet (er A c1) x' /\
        exists j p src, target t js = Some j /\ next = Some p /\ at_code p (jump_code d src j)
          /\ carries r nb1 n1' src ov (regs A c1) g') ->
        op = ONormal /\ rt' = retv A c0 /\ quiet (er A c0) x' /\
        exists j p src, target t js = Some j /\ next = Some p /\ at_code p (jump_code d src j)
          /\ carries r nb n' src ov (regs A c0) g').
  { intros js t ov (? & ? & Q' & j & p & src & ? & ? & ? & C). repeat split; auto; [congruence|eapply quiet_trans; eauto|].
    exists j, p, src. repeat split; auto. unfold carries in *. destruct r as [y|]; [|exact C].
    destruct C as (z & Hz & Hr & E). exists z. repeat split; auto; [lia|].
    rewrite <- (V0 y eq_refl). exact E. }
  destruct cm as [ov|t ov|t ov|v|ev]; auto.
  - rewrite Eo. destruct (ob1 t); auto.
  - destruct P as (? & ? & ?). repeat split; auto. eapply quiet_trans; eauto.
  - destruct P as (? & ? & HR). repeat split; auto. intros L. rewrite <- Er. auto.
Qed.

(** Everything before the finally block. *)
Definition handled (fuel : nat) (e : list nat) (b : stmt) (hc : bool) (p : option (nat * nat)) (c : stmt) (w : W)
  : option (W * completion) :=
  match exec A fuel e [] b w with
  | Some (w1, Thr _ x) =>
      if hc then
        match p with
        | Some (d, bd) =>
            let (w2, y) := w_scope A d e w1 in
            ok A (w_bind A bd x (y :: e) w2) (throws A) (fun w3 _ => exec A fuel (y :: e) [] c w3)
        | None => exec A fuel e [] c w1
        end
      else Some (w1, Thr A x)
  | r => r
  end.

Lemma exec_try fuel e ls b hc p c hf f w :
  exec A fuel e ls (Try b hc p c hf f) w =
  match handled fuel e b hc p c w with
  | None => None
  | Some (w1, c1) =>
      if hf then
        match exec A fuel e [] f w1 with
        | None => None
        | Some (w2, Normal _ _) => Some (w2, update_empty A c1 (Some (undef A)))
        | Some (w2, c2) => Some (w2, update_empty A c2 (Some (undef A)))
        end
      else Some (w1, update_empty A c1 (Some (undef A)))
  end.
Proof. reflexivity. Qed.

Lemma handled_not_ret fuel e b (hc : bool) p c w w1 cm :
  handled fuel e b hc p c w = Some (w1, cm) ->
  no_return b = true -> (if hc then no_return c else true) = true -> not_ret A cm.
Proof.
  intros H Hb Hc. unfold handled in H.
  destruct (exec A fuel e [] b w) as [[w2 c2]|] eqn:E; [|discriminate].
  pose proof (no_return_ret A fuel b e [] w w2 c2 E Hb) as N.
  destruct c2 as [ov|t ov|t ov|v|v]; try (injection H as <- <-; exact N).
  destruct hc; [|injection H as <- <-; exact N].
  destruct p as [[d bd]|].
  - destruct (w_scope A d e w2) as [w3 y]. destruct (w_bind A bd v (y :: e) w3) as [[w4 [u|u]] o]; cbn in H.
    + exact (no_return_ret A fuel c _ _ _ _ _ H Hc).
    + injection H as <- <-. exact Logic.I.
  - exact (no_return_ret A fuel c _ _ _ _ _ H Hc).
Qed.

Lemma sim_handled fuel ls seen k n b (hc : bool) (p : option (nat * nat)) c cb n1 cc n2 p0 st g e rt x w fip last :
  SimS b -> SimS c ->
  gen [] (enter k 1 ls false (n + 3)) b (n + 6) = Some (cb, n1) ->
  (if hc then gen [] (under k (1 + one p)) c n1 else Some ([], n1)) = Some (cc, n2) ->
  Wf ls seen k n -> Fit seen (rv k) b -> (hc = true -> Fit seen (rv k) c) ->
  (hc = true -> rv k = None) -> (hc = true -> returns_last q b = true) ->
  (last = true -> returns_last q b = true /\ (hc = true -> returns_last q c = true)) ->
  calms b x -> (hc = true -> calms c (false, undef A)) ->
  let cip := p0 + 1 + length cb + 1 in
  nth_error code p0 = Some (ITry n (n + 1)) -> at_code (p0 + 1) cb ->
  nth_error code (p0 + 1 + length cb) = Some (IJump (n + 1)) ->
  nth_error code cip = Some (IStub n) ->
  (if hc then at_code (cip + 1) (catch_head p (n + 4) ++ cc ++ unscope (option_map fst p)) else True) ->
  fip = cip + 1 + length (if hc then catch_head p (n + 4) ++ cc ++ unscope (option_map fst p) else []) ->
  nth_error code fip = Some (IStub (n + 1)) -> nth_error code (fip + 1) = Some (IStub (n + 3)) ->
  sim fuel (K (At A p0) st g e rt x w) (handled fuel e b hc p c w)
    (fun w' cm c' => exists ph op next err g' rt' x',
       c' = K (At A (fip + 2)) (STry A ph op next cip fip err :: st) g' e rt' x' w' /\
       pending (brk k) (con k) (dep k) (rv k) n (n + 6) n2 (held (own ls 0)) last (K (At A p0) st g e rt x w)
         cm op next err g' rt' x').
Proof.
  intros IHb IHc E1 E2 HW HFb HFc Hrv HLb HL Hxb Hxc cip HC1 HC2 HC3 HC4 HC5 EF HC6 HC7.
  pose proof (gen_le _ _ _ _ _ _ E1) as L1.
  assert (L2 : n1 <= n2) by (destruct hc; [eapply gen_le; eauto|injection E2 as _ <-; apply le_n]).
  set (c0 := K (At A p0) st g e rt x w).
  apply sim_step. unfold step. cbn [md c0]. rewrite HC1. cbn [exec_instr].
  rewrite (find_label_at code Hnodup _ _ HC4), (find_label_at code Hnodup _ _ HC6).
  unfold goto, set_stk. cbn [md regs env retv er wd stk].
  specialize (IHb fuel [] seen (enter k 1 ls false (n + 3)) (n + 6) cb n1 (p0 + 1)
    (STry A PTry ONormal None cip fip (undef A) :: st) g e rt x w E1
    (wf_enter _ _ _ _ (n + 6) 1 false (n + 3) HW ltac:(lia)) HFb HC2 Hxb).
  unfold handled.
  destruct (exec A fuel e [] b w) as [[w1 cm]|]; [|exact IHb]. cbn [sim] in IHb.
  assert (HB : reach (K (At A (p0 + 1)) (STry A PTry ONormal None cip fip (undef A) :: st) g e rt x w)
     (Post (brk k) (con k) (dep k + 1) (rv k) (n + 6) n1 (owns false ls (fip + 2)) nobody (p0 + 1 + length cb)
        (returns_last q b) (K (At A (p0 + 1)) (STry A PTry ONormal None cip fip (undef A) :: st) g e rt x w) w1 cm)).
  { eapply reach_bind; [exact IHb|]. intros cf Hc. cbn [enter brk con dep rv] in Hc.
    eapply (post_ext _ _ _ _ _ _ _ _ _ _ _ nobody nobody) in Hc; [|intros; apply own_nil|reflexivity].
    replace (fip + 2) with (fip + 1 + 1) by lia.
    eapply (post_land_brk _ (brk k)) with (p := fip + 1) in Hc; [exact Hc|..]; cbn; auto. }
  clear IHb.
  assert (HELD : forall t pp, held (own ls 0) t = held (owns false ls pp) t).
  { intros [y|] pp; unfold held; cbn; [destruct (existsb (Nat.eqb y) ls)|]; reflexivity. }
  assert (PEND : forall cm, (match cm with Thr _ _ => False | _ => True end) ->
     reach (K (At A (p0 + 1)) (STry A PTry ONormal None cip fip (undef A) :: st) g e rt x w)
       (Post (brk k) (con k) (dep k + 1) (rv k) (n + 6) n1 (owns false ls (fip + 2)) nobody (p0 + 1 + length cb)
        (returns_last q b) (K (At A (p0 + 1)) (STry A PTry ONormal None cip fip (undef A) :: st) g e rt x w) w1 cm) ->
     reach (K (At A (p0 + 1)) (STry A PTry ONormal None cip fip (undef A) :: st) g e rt x w)
       (fun c' => exists ph op next err g' rt' x',
       c' = K (At A (fip + 2)) (STry A ph op next cip fip err :: st) g' e rt' x' w1 /\
       pending (brk k) (con k) (dep k) (rv k) n (n + 6) n2 (held (own ls 0)) last c0
         cm op next err g' rt' x')).
  { clear cm HB. intros cm NT HB. eapply reach_bind; [exact HB|]. intros cf Hc.
    eapply reach_bind; [eapply (try_pend (brk k) (con k) (dep k)) with (m' := At A p0) (w0' := w) (ph := PTry);
       [auto|apply HW|apply HW|exact HC6|exact HC7|left; exact HC3| |exact Hc|auto]|].
    - intros t pp Et. apply owns_pop in Et. exact Et.
    - intros c' (op & next & err & g' & rt' & x' & -> & HP). apply reach_now.
      exists PTry, op, next, err, g', rt', x'. split; [reflexivity|].
      eapply (pending_weak _ _ _ _ _ _ _ _ _ c0 (n + 6) (n + 6) n1 _ (returns_last q b)); [..|exact HP]; cbn; auto using frame_refl, quiet_refl; try lia.
      intros HH. apply HL, HH. }
  destruct cm as [ov|t ov|t ov|v|v]; try (apply PEND; [exact Logic.I|exact HB]).
  clear PEND.
  assert (HT : reach (K (At A (p0 + 1)) (STry A PTry ONormal None cip fip (undef A) :: st) g e rt x w)
     (fun c' => exists g' rt', c' = K (At A cip) (STry A PTry OThrow None cip fip v :: st) g' e rt' (true, v) w1
        /\ frame (n + 6) (rv k) g g' /\ (returns_last q b = true -> rt' = rt))).
  { eapply reach_bind; [exact HB|]. intros cf Hc. eapply try_thrown. exact Hc. }
  clear HB. destruct hc.
  2: { cbn [sim]. eapply reach_bind; [exact HT|]. intros cf (g' & rt' & -> & F & HR).
       cbn [length] in EF. rewrite Nat.add_0_r in EF.
       apply reach_step. rewrite (step_stub _ _ _ HC4 eq_refl). rewrite <- EF.
       apply reach_step. rewrite (step_stub _ _ _ HC6 eq_refl).
       apply reach_step. rewrite (step_stub _ _ _ HC7 eq_refl).
       apply reach_now. replace (fip + 1 + 1) with (fip + 2) by lia.
       exists PTry, OThrow, None, v, g', rt', (true, v). split; [reflexivity|].
       split; [cbn; eapply frame_le; [|exact F]; lia|]. cbn. repeat split; auto. intros HH. apply HR, HL, HH. }
  specialize (Hrv eq_refl). specialize (HLb eq_refl). specialize (Hxc eq_refl). specialize (HFc eq_refl).
  assert (HCC : catch_head p (n + 4) = ICatch (n + 4) :: match p with Some (d, bd) => [IScope d; IBind bd (n + 4)] | None => [] end) by reflexivity.
  rewrite HCC in *. clear HCC.
  cbn [app] in HC5. apply at_cons in HC5. destruct HC5 as [HC5 HC8]. apply at_app in HC8. destruct HC8 as [HC8 HC9].
  apply at_app in HC9. destruct HC9 as [HC9 HC10].
  (* the clause starts *)
  assert (HK : reach (K (At A (p0 + 1)) (STry A PTry ONormal None cip fip (undef A) :: st) g e rt x w)
     (fun c' => exists g', c' = K (At A (cip + 1 + 1)) (STry A PCatch ONormal None cip fip v :: st) g' e rt (false, undef A) w1
        /\ frame n (rv k) g g' /\ g' (n + 4) = v)).
  { eapply reach_bind; [exact HT|]. intros cf (g' & rt' & -> & F & HR). rewrite (HR HLb).
    apply reach_step. rewrite (step_stub _ _ _ HC4 eq_refl).
    apply reach_step. unfold step. cbn [md]. rewrite HC5. cbn [exec_instr stk]. apply reach_now.
    exists (upd A g' (n + 4) v). split; [reflexivity|]. split; [|apply upd_same].
    eapply frame_trans with (n1 := n); [apply le_n|eapply frame_le; [|exact F]; lia|]. apply frame_upd. left. lia. }
  clear HT.
  set (d0 := option_map fst p) in *.
  set (pb := cip + 1 + 1 + length (match p with Some (d, bd) => [IScope d; IBind bd (n + 4)] | None => [] end)) in *.
  assert (EQF : fip = pb + length cc + one d0).
  { rewrite EF. unfold pb. rewrite <- (unscope_len d0). cbn [app length]. rewrite !app_length. lia. }
  assert (E1p : one p = one d0) by (destruct p as [[? ?]|]; reflexivity). rewrite E1p in E2.
  (* running it *)
  assert (RUN : forall e1 g' x' w', opened d0 e e1 -> frame n (rv k) g g' -> quiet (false, undef A) x' ->
     sim fuel (K (At A pb) (sc d0 (STry A PCatch ONormal None cip fip v :: st)) g' e1 rt x' w') (exec A fuel e1 [] c w')
      (fun w' cm c' => exists ph op next err g' rt' x',
       c' = K (At A (fip + 2)) (STry A ph op next cip fip err :: st) g' e rt' x' w' /\
       pending (brk k) (con k) (dep k) (rv k) n (n + 6) n2 (held (own ls 0)) last c0
         cm op next err g' rt' x')).
  { intros e1 g' x' w' Ho F Q.
    assert (Hx' : calms c x') by (intros N; apply Q, Hxc, N).
    specialize (IHc fuel [] seen (under k (1 + one d0)) n1 cc n2 pb
       (sc d0 (STry A PCatch ONormal None cip fip v :: st)) g' e1 rt x' w' E2
       (wf_under _ _ _ _ n1 _ HW ltac:(lia)) HFc HC9 Hx').
    eapply sim_post; [exact IHc|]. intros w3 cm cf Hc. cbn [under brk con dep rv] in Hc.
    eapply (post_ext _ _ _ _ _ _ _ _ _ _ _ nobody nobody) in Hc; [|intros; apply own_nil|reflexivity].
    replace (dep k + (1 + one d0)) with (dep k + 1 + one d0) in Hc by lia.
    eapply reach_bind; [eapply (post_unscope_opt d0 (brk k) (con k) (dep k + 1)) with (ob := nobody) (oc := nobody) (ob' := nobody) (oc' := nobody) (m' := At A pb) (w0' := w');
         [exact Ho|eapply deps_le; [|apply HW]; lia|eapply deps_le; [|apply HW]; lia|exact HC10|discriminate|discriminate|reflexivity|reflexivity|exact Hc]|].
    clear cf Hc. intros cf Hc. rewrite <- EQF in Hc.
    eapply (post_own ls) with (p := fip + 2) in Hc; [|apply HW|reflexivity].
    eapply reach_bind; [eapply (try_pend (brk k) (con k) (dep k)) with (m' := At A p0) (w0' := w) (ph := PCatch);
       [auto|apply HW|apply HW|exact HC6|exact HC7|right; reflexivity| |exact Hc|discriminate]|].
    - intros t pp Et. apply own_pop in Et. exact Et.
    - intros c' (op & next & err & g2 & rt' & x2 & -> & HP). apply reach_now.
      exists PCatch, op, next, err, g2, rt', x2. split; [reflexivity|].
      eapply (pending_weak _ _ _ _ _ _ _ _ _ c0 n1 n1 n2 _ (returns_last q c)); [..|exact HP]; cbn; auto; try lia.
      + intros HH. apply HL; auto.
      + intros _. apply Q. right. reflexivity.
      + rewrite Hrv. discriminate. }
  destruct p as [[d bd]|].
  - cbn [length option_map fst] in *. unfold d0 in *. cbn [option_map fst] in *.
    apply at_cons in HC8. destruct HC8 as [HC8 HC11]. apply at_cons in HC11. destruct HC11 as [HC11 _].
    eapply sim_bind; [exact HK|]. intros cf (g' & -> & F & Eg).
    apply sim_step. unfold step. cbn [md]. rewrite HC8. cbn [exec_instr env wd].
    destruct (w_scope A d e w1) as [w2 y]. unfold goto, set_env, set_wd, set_stk. cbn [md regs env retv er wd stk].
    replace (w_bind A bd v (y :: e) w2) with (w_bind A bd (g' (n + 4)) (y :: e) w2) by (rewrite Eg; reflexivity).
    eapply sim_bindop; [exact HC11| |].
    + intros w3 u x' Q. replace (cip + 1 + 1 + 1 + 1) with pb by (unfold pb; lia).
      apply RUN; auto. exists y. reflexivity.
    + intros w3 v0. apply reach_step. apply reach_step.
      unfold step at 2. cbn [md]. unfold unwind. cbn [stk deinit]. unfold set_env, set_stk. cbn [md regs env retv er wd stk tl].
      unfold step. cbn [md]. unfold unwind. cbn [stk]. unfold goto, set_stk. cbn [md regs env retv er wd stk snd].
      apply reach_step. rewrite (step_stub _ _ _ HC6 eq_refl).
      apply reach_step. rewrite (step_stub _ _ _ HC7 eq_refl).
      apply reach_now. replace (fip + 1 + 1) with (fip + 2) by lia.
      exists PCatch, OThrow, None, v0, g', rt, (true, v0). split; [reflexivity|].
      split; [exact F|]. cbn. auto.
  - eapply sim_bind; [exact HK|]. intros cf (g' & -> & F & Eg).
    cbn [length] in pb. replace (cip + 1 + 1) with pb by (unfold pb; lia).
    apply (RUN e g' (false, undef A) w1); auto using quiet_refl. reflexivity.
Qed.

Lemma gen_try ls k b hc p c hf f n : gen ls k (Try b hc p c hf f) n =
  match gen [] (enter k 1 ls false (n + 3)) b (n + 6) with
  | None => None
  | Some (cb, n1) =>
      match (if hc then gen [] (under k (1 + one p)) c n1 else Some ([], n1)) with
      | None => None
      | Some (cc, n2) =>
          match (if hf then gen [] (with_rv (under k 1) (match rv k with Some _ => Some (n + 5) | None => None end)) f n2 else Some ([], n2)) with
          | None => None
          | Some (cf, n3) =>
              Some (clear (rv k) ++ [ITry n (n + 1)] ++ cb ++ [IJump (n + 1); IStub n]
                    ++ (if hc then catch_head p (n + 4) ++ cc ++ unscope (option_map fst p) else [])
                    ++ [IStub (n + 1); IStub (n + 3)]
                    ++ (if hf then IFinally :: clear (match rv k with Some _ => Some (n + 5) | None => None end) ++ cf else [])
                    ++ [ITryEnd; IStub (n + 2); IPop], n3)
          end
      end
  end.
Proof. reflexivity. Qed.

Lemma sim_try b hc p c hf f : SimS b -> SimS c -> SimS f -> SimS (Try b hc p c hf f).
Proof.
  intros IHb IHc IHf fuel ls seen k n cs n' pc st g e rt x w H HW HF HC Hx. rewrite gen_try in H.
  pose proof (fit_sub _ _ _ HF) as (HFb & HFc & HFf).
  destruct (gen [] _ b (n + 6)) as [[cb n1]|] eqn:E1; [|discriminate].
  destruct (if hc then gen [] (under k (1 + one p)) c n1 else Some ([], n1)) as [[cc n2]|] eqn:E2; [|discriminate].
  set (frv := match rv k with Some _ => Some (n + 5) | None => None end) in *.
  destruct (if hf then _ else _) as [[cf n3]|] eqn:E3; [|discriminate].
  set (catchc := if hc then catch_head p (n + 4) ++ cc ++ unscope (option_map fst p) else []) in *.
  set (finc := if hf then IFinally :: clear frv ++ cf else []) in *.
  injection H as <- <-.
  pose proof (gen_le _ _ _ _ _ _ E1) as L1.
  assert (L2 : n1 <= n2) by (destruct hc; [eapply gen_le; eauto|injection E2 as _ <-; apply le_n]).
  assert (L3 : n2 <= n3) by (destruct hf; [eapply gen_le; eauto|injection E3 as _ <-; apply le_n]).
  apply at_app in HC. destruct HC as [HC1 HC].
  apply at_cons in HC. destruct HC as [HC2 HC].
  apply at_app in HC. destruct HC as [HC3 HC].
  apply at_cons in HC. destruct HC as [HC4 HC].
  apply at_cons in HC. destruct HC as [HC5 HC].
  apply at_app in HC. destruct HC as [HC6 HC].
  apply at_cons in HC. destruct HC as [HC7 HC].
  apply at_cons in HC. destruct HC as [HC8 HC].
  apply at_app in HC. destruct HC as [HC9 HC].
  apply at_cons in HC. destruct HC as [HC10 HC].
  apply at_cons in HC. destruct HC as [HC11 HC].
  apply at_cons in HC. destruct HC as [HC12 _].
  set (p0 := pc + length (clear (rv k))) in *.
  set (cip := p0 + 1 + length cb + 1) in *.
  set (fip := cip + 1 + length catchc) in *.
  set (pE := fip + 1 + 1 + length finc) in *.
  replace (pc + length _) with (pE + 3) by (unfold pE, fip, cip, p0; len).
  assert (HSo := every_here _ _ (fit_sound _ _ _ HF)). cbn beta iota in HSo.
  apply andb_prop in HSo. destruct HSo as [HSf HSc].
  set (last := returns_last q (Try b hc p c hf f)) in *.
  assert (HLAST : last = true -> returns_last q b = true /\ (hc = true -> returns_last q c = true)
                  /\ (hf = true -> returns_last q f = true /\ no_return b = true /\ (if hc then no_return c else true) = true)).
  { intros HH. pose proof (every_here _ _ HH) as HH0. apply every_sub in HH. destruct HH as (HH1 & HH2 & HH3).
    split; [exact HH1|split; [exact HH2|]]. intros ->. split; [auto|]. cbn beta iota in HH0. apply andb_prop in HH0. exact HH0. }
  eapply sim_clear; [exact HC1|]. fold p0. set (g1 := clr (rv k) g).
  rewrite exec_try.
  (* what the pending completion is measured against *)
  set (lastH := returns_last q b && (if hc then returns_last q c else true)).
  assert (HLH : lastH = true -> returns_last q b = true /\ (hc = true -> returns_last q c = true)).
  { intros HH. apply andb_prop in HH. destruct HH as [HH1 HH2]. split; [exact HH1|]. intros ->. exact HH2. }
  assert (HLN : no_return b = true -> (if hc then no_return c else true) = true -> lastH = true).
  { intros N1 N2. unfold lastH. rewrite (no_return_last b N1). destruct hc; [rewrite (no_return_last c N2)|]; reflexivity. }
  assert (Hrv : hc = true -> rv k = None).
  { intros ->. destruct (rv k) as [y|] eqn:Er; [|reflexivity]. exfalso.
    assert (HN := fit_catch _ _ _ HF ltac:(congruence)). apply every_here in HN. discriminate. }
  assert (HS := sim_handled fuel ls seen k n b hc p c cb n1 cc n2 p0 st g1 e rt x w fip lastH IHb IHc E1 E2 HW HFb HFc Hrv).
  assert (HLb : hc = true -> returns_last q b = true) by (intros ->; exact HSc).
  assert (Hxb : calms b x) by (eapply calms_sub; [|exact Hx|apply quiet_refl]; sub).
  assert (Hxc : hc = true -> calms c (false, undef A)) by (intros _ _; right; reflexivity).
  specialize (HS HLb HLH Hxb Hxc HC2 HC3 HC4 HC5).
  assert (HCcatch : if hc then at_code (cip + 1) (catch_head p (n + 4) ++ cc ++ unscope (option_map fst p)) else True)
    by (unfold catchc in HC6; destruct hc; [exact HC6|exact Logic.I]).
  specialize (HS HCcatch eq_refl HC7 HC8). fold cip in HS. clear IHb IHc HCcatch.
  destruct (handled fuel e b hc p c w) as [[w1 cm1]|] eqn:EH; [|exact HS]. cbn [sim] in HS.
  set (c0 := K (At A p0) st g1 e rt x w) in *.
  set (P := Post (brk k) _ _ _ _ _ _ _ _ _ _).
  (* from the configuration behind [clear] to the start *)
  assert (BACK : forall w' cm cc', Post (brk k) (con k) (dep k) (rv k) n n3 (own ls (pE + 3)) nobody (pE + 3) last c0 w' cm cc' ->
     P w' (update_empty A cm (Some (undef A))) cc').
  { intros w' cm cc' HP. unfold P.
    eapply (post_shift _ _ _ _ _ _ _ _ _ _ _ n n3 last c0); [..|exact HP]; cbn; auto using quiet_refl.
    - apply clr_frame.
    - intros y Hy. apply clr_val. exact Hy. }
  assert (HELD : forall t, held (own ls (pE + 3)) t = held (own ls 0) t).
  { intros [y|]; unfold held; cbn; [destruct (existsb (Nat.eqb y) ls)|]; reflexivity. }
  replace (fip + 1 + 1) with (fip + 2) in * by lia.
  destruct hf.
  2: { cbn [sim]. eapply reach_bind; [exact HS|]. intros cx (ph & op & next & err & g' & rt' & x' & -> & HP).
       assert (EpE : fip + 2 = pE) by (unfold pE; cbn; lia). rewrite EpE.
       eapply reach_bind; [eapply (try_finish (brk k) (con k) (dep k) (rv k) n (n + 6) n2 n3 (own ls (pE + 3))) with (c0 := c0) (last := last) (cm := cm1);
          [exact HC10|exact HC11|replace (pE + 2) with (pE + 1 + 1) by lia; exact HC12| |reflexivity|reflexivity|lia|lia|]|].
       - intros t pp Et. apply own_pop in Et. exact Et.
       - eapply (pending_weak _ _ _ _ _ _ _ _ _ c0 n (n + 6) n2 _ lastH c0); [..|exact HP]; auto using frame_refl, quiet_refl.
         intros HH. destruct (HLAST HH) as (A1 & A2 & _). unfold lastH. rewrite A1. destruct hc; auto.
       - intros cx Hc. apply reach_now. apply BACK. exact Hc. }
  (* the finally block *)
  specialize (HFf eq_refl). apply andb_prop in HSf. destruct HSf as [HSq HSe].
  unfold finc in HC9. apply at_cons in HC9. destruct HC9 as [HC13 HC9]. apply at_app in HC9. destruct HC9 as [HC14 HC15].
  set (pf := fip + 2 + 1 + length (clear frv)) in *.
  assert (EpE : pE = pf + length cf) by (unfold pE, finc, pf; cbn [length]; rewrite app_length; lia).
  assert (HFf' : Fit seen frv f).
  { destruct HFf as [F1 F2 F3 F4]. constructor; auto. intros HN. apply F3. unfold frv in HN. destruct (rv k); congruence. }
  assert (HWf : Wf [] seen (with_rv (under k 1) frv) n2).
  { destruct (wf_under _ _ _ _ n2 1 HW ltac:(lia)) as [W1 W2 W3 W4 W5 W6]. constructor; auto.
    cbn [with_rv rv]. intros r Er. unfold frv in Er. destruct (rv k); [|discriminate]. injection Er as <-. lia. }
  assert (Hxf : forall x, calms f x).
  { intros x' N. apply orb_prop in HSq. destruct HSq as [HSq|HSq]; [left; exact HSq|]. rewrite N in HSq. discriminate. }
  eapply sim_bind; [exact HS|]. intros cx (ph & op & next & err & g' & rt' & x' & -> & HP).
  apply sim_step. unfold step. cbn [md]. rewrite HC13. cbn [exec_instr stk]. unfold goto, set_stk. cbn [md regs env retv er wd stk].
  eapply sim_clear; [exact HC14|]. fold pf. set (g2 := clr frv g').
  specialize (IHf fuel [] seen (with_rv (under k 1) frv) n2 cf n3 pf (STry A PFinally op next cip fip err :: st) g2 e rt' x' w1
                E3 HWf HFf' HC15 (Hxf x')).
  destruct (exec A fuel e [] f w1) as [[w2 cm2]|] eqn:EX; [|exact IHf]. cbn [sim] in IHf.
  cbn [with_rv under brk con dep rv] in IHf.
  assert (G2 : forall z, z < n2 -> z <> n + 5 -> g2 z = g' z).
  { intros z Hz Hn. unfold g2. apply clr_other. unfold frv. destruct (rv k); congruence. }
  assert (FR : forall g3, frame n2 frv g2 g3 -> forall z, z < n2 -> z <> n + 5 -> g3 z = g' z).
  { intros g3 F z Hz Hn. rewrite <- G2 by auto. apply F; [exact Hz|]. unfold frv. destruct (rv k); congruence. }
  assert (F3 : forall g3, frame n2 frv g2 g3 -> frame n (rv k) g1 g3).
  { intros g3 F z Hz Hr. rewrite (FR g3 F z) by lia. apply HP; auto. }
  assert (NR : no_return b = true -> (if hc then no_return c else true) = true -> op <> OReturn /\ rt' = rt).
  { intros N1 N2. pose proof (handled_not_ret _ _ _ _ _ _ _ _ _ EH N1 N2) as NR.
    destruct HP as [_ HP]. cbv zeta in HP. specialize (HLN N1 N2).
    destruct cm1 as [ov|t ov|t ov|v|v]; [..|destruct NR|].
    - destruct HP as (-> & _ & -> & _). split; [discriminate|reflexivity].
    - destruct (held (own ls 0) t); [destruct HP as (-> & _ & -> & _)|destruct HP as (-> & -> & _)]; (split; [discriminate|reflexivity]).
    - destruct HP as (-> & -> & _). split; [discriminate|reflexivity].
    - destruct HP as (-> & _ & HR). split; [discriminate|apply HR, HLN]. }
  assert (AWAY : forall js t ov cx, Forall (fun j => j_dep j <= dep k) js -> q = true ->
     no_return b = true -> (if hc then no_return c else true) = true ->
     leave (dep k + 1) frv n2 n3 js t ov (K (At A pf) (STry A PFinally op next cip fip err :: st) g2 e rt' x' w1) w2 cx ->
     reach cx (leave (dep k) (rv k) n n3 js t ov c0 w2)).
  { intros js t ov cx Fj Eq N1 N2 (j & pp & src & g3 & x3 & Hj & -> & Hcode & F & Q & C).
    destruct (NR N1 N2) as [NO Ert]. cbn [stk env retv regs er] in *.
    apply jump_code_pop in Hcode; [|eapply target_dep; eauto]. destruct Hcode as [Hp Hcode].
    apply reach_step. unfold step. cbn [md]. rewrite Hp. cbn [exec_instr]. unfold pop_state. cbn [stk].
    assert (E : (match op with OReturn => goto A (set_stk A (K (At A pp) (STry A PFinally op next cip fip err :: st) g3 e rt' x3 w2) st) (Un A XRet)
                 | _ => goto A (set_stk A (K (At A pp) (STry A PFinally op next cip fip err :: st) g3 e rt' x3 w2) st) (At A (pp + 1)) end)
                = K (At A (pp + 1)) st g3 e rt x3 w2) by (rewrite Ert; destruct op; [reflexivity|reflexivity|congruence]).
    rewrite E. apply reach_now. exists j, (pp + 1), src, g3, x3. cbn. repeat split; auto.
    - intros _. left. exact Eq.
    - unfold carries in *. unfold frv in C. unfold g2, frv in C. unfold g1. destruct (rv k) as [y|]; [|exact C].
      destruct C as (z & Hz & Hr & E'). exists z. repeat split; [exact Hz|right; lia|].
      rewrite E'. cbn [clr]. rewrite !upd_same. reflexivity. }
  assert (ESC : escapes f = true -> q = true /\ no_return b = true /\ (if hc then no_return c else true) = true).
  { intros N. rewrite N in HSq, HSe. cbn in HSe. apply andb_prop in HSe. split; [|exact HSe].
    apply orb_prop in HSq. destruct HSq as [HSq|HSq]; [exact HSq|]. rewrite andb_false_r in HSq. discriminate. }
  destruct cm2 as [ov|t ov|t ov|v|v].
  - cbn [sim]. eapply reach_bind; [exact IHf|]. intros cx (g3 & x3 & -> & F & Q & Hv). cbn [stk env retv regs er] in *.
    rewrite <- EpE.
    eapply reach_bind; [eapply (try_finish (brk k) (con k) (dep k) (rv k) n (n + 6) n2 n3 (own ls (pE + 3))) with (c0 := c0) (last := last) (cm := cm1);
          [exact HC10|exact HC11|replace (pE + 2) with (pE + 1 + 1) by lia; exact HC12| |reflexivity|reflexivity|lia|lia|]|].
    + intros t pp Et. apply own_pop in Et. exact Et.
    + eapply (pending_later _ _ _ _ _ _ n2 _ _ _ _ _ _ _ g' g3 _ x' x3 (n + 5)); [|lia|lia|lia|apply HW|apply FR; exact F|exact Q].
      eapply (pending_weak _ _ _ _ _ _ _ _ _ c0 n (n + 6) n2 _ lastH c0); [..|exact HP]; auto using frame_refl, quiet_refl.
      intros HH. destruct (HLAST HH) as (A1 & A2 & _). unfold lastH. rewrite A1. destruct hc; auto.
    + intros cx Hc. apply reach_now. apply BACK. exact Hc.
  - cbn [sim]. eapply reach_bind; [exact IHf|]. intros cx Hc. rewrite <- EpE in Hc.
    cbn [Post] in Hc. rewrite own_nil in Hc.
    assert (N : escapes f = true).
    { destruct (escapes f) eqn:N; [reflexivity|]. destruct (no_escape A fuel f e w1 w2 _ EX N). }
    destruct (ESC N) as (Eq & N1 & N2).
    eapply reach_bind; [eapply AWAY; [apply HW|exact Eq|exact N1|exact N2|exact Hc]|].
    clear cx Hc. intros cx Hc. apply reach_now. apply BACK.
    eapply (post_own ls) with (ob := nobody); [apply HW|reflexivity|]. exact Hc.
  - cbn [sim]. eapply reach_bind; [exact IHf|]. intros cx Hc. cbn [Post nobody] in Hc.
    assert (N : escapes f = true).
    { destruct (escapes f) eqn:N; [reflexivity|]. destruct (no_escape A fuel f e w1 w2 _ EX N). }
    destruct (ESC N) as (Eq & N1 & N2).
    eapply reach_bind; [eapply AWAY; [exact (wf_con _ _ _ _ HW)|exact Eq|exact N1|exact N2|exact Hc]|].
    clear cx Hc. intros cx Hc. apply reach_now. apply BACK. exact Hc.
  - cbn [sim]. eapply reach_bind; [exact IHf|]. intros cx (g3 & x3 & -> & F & Q). cbn [stk env retv regs er] in *.
    assert (Eq : q = true).
    { apply orb_prop in HSq. destruct HSq as [HSq|HSq]; [exact HSq|]. apply andb_prop in HSq. destruct HSq as [_ HN].
      destruct (no_return_ret A fuel f e [] w1 w2 _ EX HN). }
    apply reach_step. unfold step. cbn [md]. unfold unwind. cbn [stk]. apply reach_now. apply BACK.
    exists g3, x3. cbn. repeat split; auto. intros _. left. exact Eq.
  - cbn [sim]. eapply reach_bind; [exact IHf|]. intros cx (g3 & rt3 & -> & F & HR). cbn [stk env retv regs er] in *.
    apply reach_step. unfold step. cbn [md]. unfold unwind. cbn [stk]. apply reach_now. apply BACK.
    exists g3, rt3. cbn. repeat split; auto. intros HH. destruct (HLAST HH) as (_ & _ & A3).
    destruct (A3 eq_refl) as (A4 & A5 & A6). rewrite (HR A4). apply NR; auto.
Qed.

Theorem sim_all : (forall s, SimS s) /\ (forall cs, SimC cs).
Proof.
  apply stmt_cases_ind; auto using sim_nop, sim_semi, sim_expr, sim_do, sim_seq, sim_block, sim_if, sim_dowhile, sim_while,
    sim_for, sim_forof, sim_switch, sim_with_stmt, sim_labelled, sim_break, sim_continue, sim_return, sim_throw, sim_try,
    sim_cnil, sim_ccons.
Qed.

End Sim.

(** ** Whole programs *)

Lemma outcome_dead A code c o n : outcome A c = Some o -> run A n code c = c.
Proof. intros H. apply run_dead. unfold outcome, live in *. destruct (md A c); try discriminate; tauto. Qed.

Lemma outcome_det A code c n m o o' :
  outcome A (run A n code c) = Some o -> outcome A (run A m code c) = Some o' -> o = o'.
Proof.
  assert (G : forall n m, n <= m -> outcome A (run A n code c) = Some o -> outcome A (run A m code c) = Some o).
  { intros a b L H. replace b with (a + (b - a)) by lia. rewrite run_add, (outcome_dead _ _ _ _ _ H). exact H. }
  intros H H'. destruct (Nat.le_ge_cases n m) as [L|L].
  - rewrite (G n m L H) in H'. congruence.
  - assert (G' : outcome A (run A n code c) = Some o').
    { replace n with (m + (n - m)) by lia. rewrite run_add, (outcome_dead _ _ _ _ _ H'). exact H'. }
    congruence.
Qed.

Lemma fine_sim A code s : NoDup (stubs code) -> fine A s -> distinct [] s = true ->
  exists q nc, SimS A code q nc s /\ sound q s = true /\ (nc = true -> no_closing s = true) /\ (no_closing s = false -> nc = false).
Proof.
  intros ND [[H1 H2]|[H1 [[H2 H3]|[H2 H3]]]] HD.
  - exists true, true. split; [|repeat split; auto; congruence].
    apply sim_all; auto; discriminate.
  - exists true, false. split; [|repeat split; auto; discriminate].
    apply sim_all; auto.
  - exists false, false. split; [|repeat split; auto; discriminate].
    apply sim_all; auto; discriminate.
Qed.

Section Whole.

Variable A : world.
Variable code : list instr.
Variable s : stmt.
Variable ans_of : completion A -> option (V A + V A).
Variables (e : list nat) (w : W A).

Hypothesis Hsim : forall fuel,
  sim A code fuel (start A e w) (exec A fuel e [] s w)
    (fun w' cm c => exists r, ans_of cm = Some r /\ outcome A c = Some (w', r)).

Lemma whole_iff w' r :
  (exists n, outcome A (run A n code (start A e w)) = Some (w', r)) <->
  (exists fuel cm, exec A fuel e [] s w = Some (w', cm) /\ ans_of cm = Some r).
Proof.
  split.
  - intros [n Hn]. specialize (Hsim n). destruct (exec A n e [] s w) as [[w1 cm]|] eqn:E; cbn [sim] in Hsim.
    + destruct Hsim as (m & r1 & Hr & Ho). pose proof (outcome_det _ _ _ _ _ _ _ Hn Ho) as [= -> ->].
      exists n, cm. auto.
    + exfalso. unfold late, live in Hsim. unfold outcome in Hn. destruct (md A (run A n code (start A e w))); try discriminate; tauto.
  - intros (fuel & cm & E & Hr). specialize (Hsim fuel). rewrite E in Hsim. cbn [sim] in Hsim.
    destruct Hsim as (m & r1 & Hr1 & Ho). exists m. congruence.
Qed.

Lemma whole_good n : md A (run A n code (start A e w)) <> Bad A.
Proof.
  intros HB.
  specialize (Hsim n). destruct (exec A n e [] s w) as [[w1 cm]|]; cbn [sim] in Hsim.
  - destruct Hsim as (m & r1 & Hr & Ho).
    assert (D : ~ live A (run A n code (start A e w))) by (unfold live; rewrite HB; tauto).
    destruct (Nat.le_ge_cases n m) as [L|L].
    + replace m with (n + (m - n)) in Ho by lia. rewrite run_add, (run_dead _ _ _ _ D) in Ho.
      unfold outcome in Ho. rewrite HB in Ho. discriminate.
    + replace n with (m + (n - m)) in HB by lia. rewrite run_add, (outcome_dead _ _ _ _ _ Ho) in HB.
      unfold outcome in Ho. rewrite HB in Ho. discriminate.
  - unfold late, live in Hsim. rewrite HB in Hsim. exact Hsim.
Qed.

End Whole.

Lemma at_self code : at_code code 0 code.
Proof. intros i x H. exact H. Qed.

Lemma function_sim A s code e w : function_code s = Some code -> distinct [] s = true -> fine A s ->
  forall fuel, sim A code fuel (start A e w) (exec A fuel e [] s w)
    (fun w' cm c => exists r, called A cm = Some r /\ outcome A c = Some (w', r)).
Proof.
  intros HG HD HF fuel. unfold function_code in HG.
  destruct (gen [] _ s 0) as [[c n']|] eqn:E; [|discriminate]. injection HG as <-. cbn [fst].
  pose proof (proj1 gen_within_both _ _ _ _ _ _ E) as HWi. apply within_nodup in HWi.
  destruct (fine_sim A c s HWi HF HD) as (q & nc & HS & Hso & Hnc & Hcl).
  assert (HWf : Wf [] [] {| brk := []; con := []; dep := 0; rv := None |} 0).
  { constructor; cbn; auto; try discriminate; try tauto. }
  assert (HFit : Fit q nc [] None s) by (constructor; auto; congruence).
  assert (Hx : calms A q s (er A (start A e w))) by (intros _; right; reflexivity).
  specialize (HS fuel [] [] _ 0 c n' 0 [] (fun _ => undef A) e (undef A) (false, undef A) w E HWf HFit (at_self c) Hx).
  eapply sim_post; [exact HS|]. clear HS. cbn [brk con dep rv]. intros w' cm k Hk.
  destruct cm as [ov|t ov|t ov|v|v]; cbn [Post] in Hk; rewrite ?own_nil in Hk; cbn [nobody] in Hk.
  - destruct Hk as (g & x & -> & _). cbn [stk env retv].
    apply reach_step. unfold step. cbn [md]. rewrite (proj2 (nth_error_None c (0 + length c))) by lia.
    apply reach_step. apply reach_now. exists (inl (undef A)). split; reflexivity.
  - destruct Hk as (j & ? & ? & ? & ? & Hj & _). destruct t; discriminate.
  - destruct Hk as (j & ? & ? & ? & ? & Hj & _). destruct t; discriminate.
  - destruct Hk as (g & x & -> & _). apply reach_step. apply reach_now. exists (inl v). split; reflexivity.
  - destruct Hk as (g & rt & -> & _). apply reach_step. apply reach_now. exists (inr v). split; reflexivity.
Qed.

Lemma eval_sim A s code e w : eval_code s = Some code -> distinct [] s = true -> no_catch s = true -> fine A s ->
  forall fuel, sim A code fuel (start A e w) (exec A fuel e [] s w)
    (fun w' cm c => exists r, evaluated A cm = Some r /\ outcome A c = Some (w', r)).
Proof.
  intros HG HD HN HF fuel. unfold eval_code in HG.
  destruct (gen [] _ s 1) as [[c n']|] eqn:E; [|discriminate]. injection HG as <-. cbn [fst].
  set (code := IUndef 0 :: c ++ [IReturn 0]).
  pose proof (proj1 gen_within_both _ _ _ _ _ _ E) as HWi. apply within_nodup in HWi.
  assert (ND : NoDup (stubs code)).
  { unfold code. cbn [stubs]. rewrite stubs_app. cbn [stubs]. rewrite app_nil_r. exact HWi. }
  destruct (fine_sim A code s ND HF HD) as (q & nc & HS & Hso & Hnc & Hcl).
  assert (HWf : Wf [] [] {| brk := []; con := []; dep := 0; rv := Some 0 |} 1).
  { constructor; cbn; auto; try discriminate; try tauto. intros r [= <-]. lia. }
  assert (HFit : Fit q nc [] (Some 0) s) by (constructor; auto; congruence).
  assert (Hx : calms A q s (er A (start A e w))) by (intros _; right; reflexivity).
  pose proof (at_self code) as HC. apply at_cons in HC. destruct HC as [HC1 HC]. apply at_app in HC. destruct HC as [HC2 HC3].
  apply at_cons in HC3. destruct HC3 as [HC3 _].
  apply sim_step. unfold step. cbn [md start]. rewrite HC1. cbn [exec_instr]. unfold goto, set_reg. cbn [md regs env retv er wd stk].
  specialize (HS fuel [] [] _ 1 c n' 1 [] (upd A (fun _ => undef A) 0 (undef A)) e (undef A) (false, undef A) w E HWf HFit HC2 Hx).
  eapply sim_post; [exact HS|]. clear HS. cbn [brk con dep rv]. intros w' cm k Hk.
  destruct cm as [ov|t ov|t ov|v|v]; cbn [Post] in Hk; rewrite ?own_nil in Hk; cbn [nobody] in Hk.
  - destruct Hk as (g & x & -> & _ & _ & Hv). cbn [stk env retv regs] in *. specialize (Hv 0 eq_refl).
    apply reach_step. unfold step. cbn [md]. change (1 + length c) with (0 + 1 + length c). rewrite HC3. cbn [exec_instr regs].
    apply reach_step. apply reach_now. exists (inl (vof A ov (undef A))).
    rewrite Hv. split; [|reflexivity]. destruct ov; reflexivity.
  - destruct Hk as (j & ? & ? & ? & ? & Hj & _). destruct t; discriminate.
  - destruct Hk as (j & ? & ? & ? & ? & Hj & _). destruct t; discriminate.
  - destruct Hk as (g & x & -> & _). apply reach_step. apply reach_now. exists (inl v). split; reflexivity.
  - destruct Hk as (g & rt & -> & _). apply reach_step. apply reach_now. exists (inr v). split; reflexivity.
Qed.
