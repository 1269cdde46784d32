(** C37, C66: Atomics.wait and Atomics.notify. *)
From Coq Require Import ZArith List Bool Arith Lia.
Import ListNotations.
From Verif Require Import StrModel NumModel NumSpec NumProofs WaitModel WaitSpec WaitProofs WaitStepProofs.

(** For every schedule: notify takes the oldest waiters of its position, as many
    as it may and as there are, in order of arrival, and returns their number; no
    other agent enters or leaves meanwhile. *)
Theorem C37_notify_exact : forall m progs sched, notify_exact (log (run sched (start m progs))).
Proof. intros m progs sched. apply (notify_exact_ok m), run_good. Qed.
Print Assumptions C37_notify_exact.

(** Results of the waits, exactly: "timed-out" when the time was over while
    blocked, else "ok", and then it was notified or woke up spuriously; nobody is
    notified twice. *)
Theorem C37_results_actual : forall m progs sched l, l = log (run sched (start m progs)) ->
  NoDup (signals l) /\
  forall a w r, In (EDone a w r) l ->
    (r = RTimedOut <-> In (EExpire w) l) /\
    (r = ROk -> In (ESpurious w) l \/ In w (signals l)).
Proof.
  intros m progs sched l ->. pose proof (g_log _ _ (run_good m progs sched)) as L.
  split; [apply (signals_nodup m), L|]. intros a w r D.
  destruct (done_facts m _ L a w r D) as [[-> C]|[-> [C1 C2]]].
  - split; [tauto|discriminate].
  - split; [split; [discriminate|tauto]|tauto].
Qed.
Print Assumptions C37_results_actual.

(** The claim: a wait returns "ok" if and only if it was notified, once; without
    spurious wake-ups and when no waiter runs out of time before it is notified
    (between its deadline and the moment it has the mutex again). *)
Theorem C37_matched_guarded : forall m progs sched,
  no_spurious (log (run sched (start m progs))) -> no_late (log (run sched (start m progs))) ->
  matched (log (run sched (start m progs))).
Proof. intros m progs sched. apply (matched_ok m), run_good. Qed.
Print Assumptions C37_matched_guarded.

(** A notified waiter does not stay blocked. *)
Theorem C37_no_lost_wakeup : forall m progs sched a g w p tm,
  nth_error (agents (run sched (start m progs))) a = Some g -> at_ g = PBlocked w p tm ->
  ~ In w (signals (log (run sched (start m progs)))) /\ In w (queue (log (run sched (start m progs))) p).
Proof.
  intros m progs sched a g w p tm N P. pose proof (run_good m progs sched) as G.
  destruct (g_agents _ _ G a g N) as (_ & O & _). rewrite P in O. destruct O as (_ & Q & _).
  destruct (queue_facts m _ (g_log _ _ G)) as [_ IQ]. split; [apply (IQ w p Q)|exact Q].
Qed.
Print Assumptions C37_no_lost_wakeup.

(** wait blocks if and only if the cell has the expected value at that moment. *)
Theorem C37_compare : forall m progs sched l l1 l2, l = log (run sched (start m progs)) ->
  (forall a w p v x, l = l1 ++ EEnter a w p v x :: l2 -> x = value m l1 p /\ v = x) /\
  (forall a p v x, l = l1 ++ ENotEqual a p v x :: l2 -> x = value m l1 p /\ v <> x).
Proof. intros m progs sched l l1 l2 ->. apply (compare_ok m), run_good. Qed.
Print Assumptions C37_compare.

(** The waiter lists never contain freed waiters. *)
Theorem C37_no_use_after_free : forall m progs sched, crashed (run sched (start m progs)) = false.
Proof. intros m progs sched. apply (g_crash m), run_good. Qed.
Print Assumptions C37_no_use_after_free.

(** Three agents: two wait on the same cell, the third notifies one; the first
    returns "ok", the second times out. *)
Definition demo_sched : list (nat * choice) :=
  map (fun a => (a, Go)) [0;0;0; 1;1;1; 2;2;2;2;2;2; 0;0;0] ++ [(1, Expire)] ++ map (fun a => (a, Go)) [1;1;1].
Definition demo : st :=
  run demo_sched (start (fun _ => 0%Z) [[OWait 8 0 true]; [OWait 8 0 true]; [ONotify 8 (Some 1)]]).
Example C37_witness :
  log demo = [EEnter 0 0 8 0 0; EEnter 1 1 8 0 0; ENotify 2 8 (Some 1); ESignal 2 0; ECount 2 1; EDone 0 0 ROk; EExpire 1; EDone 1 1 RTimedOut] /\
  no_spurious (log demo) /\ no_late (log demo).
Proof.
  assert (E : log demo = [EEnter 0 0 8 0 0; EEnter 1 1 8 0 0; ENotify 2 8 (Some 1); ESignal 2 0; ECount 2 1; EDone 0 0 ROk; EExpire 1; EDone 1 1 RTimedOut])
    by (vm_compute; reflexivity).
  rewrite E. split; [reflexivity|]. split.
  - intros w H. cbn in H. intuition discriminate.
  - intros l1 a w l2 Q. do 3 (destruct l1 as [|e l1]; [discriminate|injection Q as <- Q]).
    destruct l1 as [|e l1].
    + injection Q as <- <- _. cbn. intuition discriminate.
    + injection Q as _ Q. exfalso. assert (H : In (ESignal a w) [ECount 2 1; EDone 0 0 ROk; EExpire 1; EDone 1 1 RTimedOut]).
      { rewrite Q. apply in_or_app. right. left. reflexivity. }
      cbn in H. intuition discriminate.
Qed.

(** A spurious wake-up makes wait return "ok" though nobody notified. *)
Theorem C37_spurious_refuted : exists m progs sched, ~ matched (log (run sched (start m progs))).
Proof.
  exists (fun _ => 0%Z), [[OWait 8 0 false]], [(0, Go); (0, Go); (0, Go); (0, Spurious); (0, Go); (0, Go)].
  intros [_ M]. specialize (M 0 0 ROk). vm_compute in M. destruct M as [M _]; [tauto|]. exact (M eq_refl).
Qed.
Print Assumptions C37_spurious_refuted.

(** notify counts a waiter whose time is over but which does not have the mutex
    again yet; that wait returns "timed-out". *)
Theorem C37_late_refuted : exists m progs sched,
  no_spurious (log (run sched (start m progs))) /\ ~ matched (log (run sched (start m progs))).
Proof.
  exists (fun _ => 0%Z), [[OWait 8 0 true]; [ONotify 8 None]],
    [(0, Go); (0, Go); (0, Go); (0, Expire); (1, Go); (1, Go); (1, Go); (1, Go); (1, Go); (1, Go); (0, Go); (0, Go)].
  split.
  - intros w H. vm_compute in H. intuition discriminate.
  - intros [_ M]. specialize (M 0 0 RTimedOut). vm_compute in M. destruct M as [_ M]; [tauto|]. discriminate M. tauto.
Qed.
Print Assumptions C37_late_refuted.

(** ** C66: the deadline *)
Local Open Scope Z_scope.

(** A finite timeout below 2^64 gives a valid time, later by the whole number of
    milliseconds (negative: not later). *)
Theorem C66_deadline_guarded : forall t s m e sec nsec, double t s m e -> 0 <= nsec < 1000000000 ->
  with_sign s (whole m e) < 2 ^ 64 ->
  exists sec' nsec', wait_deadline t sec nsec = SOk (Some (sec', nsec')) /\ 0 <= nsec' < 1000000000 /\
    sec' * 1000000000 + nsec' = sec * 1000000000 + nsec + Z.max 0 (with_sign s (whole m e)) * 1000000.
Proof. exact wait_deadline_finite. Qed.
Print Assumptions C66_deadline_guarded.

Theorem C66_infinite : forall t sec nsec, 0 <= nsec < 1000000000 ->
  (nan t \/ infinite t false -> wait_deadline t sec nsec = SOk None) /\
  (infinite t true -> wait_deadline t sec nsec = SOk (Some (sec, nsec))).
Proof.
  intros t sec nsec N. split.
  - intros [H|H]; unfold wait_deadline.
    + destruct (nan_fields t H) as (-> & _). reflexivity.
    + destruct (infinite_fields t false H) as (-> & -> & -> & _). reflexivity.
  - intro H. unfold wait_deadline. destruct (infinite_fields t true H) as (-> & -> & -> & _). cbn [negb andb orb].
    unfold deadline. rewrite Z.div_0_l, Z.mod_0_l, Z.mul_0_l, !Z.add_0_r by lia.
    assert (E : (1000000000 <=? nsec) = false) by (apply Z.leb_gt; lia). rewrite E. reflexivity.
Qed.
Print Assumptions C66_infinite.

(** 1.5 (0x3ff8...) at .9995 s: one millisecond later, with the carry. *)
Example C66_witness :
  double 0x3ff8000000000000 false (2 ^ 52 + 2 ^ 51) (1023 - 1075) /\
  wait_deadline 0x3ff8000000000000 5 999500000 = SOk (Some (6, 500000)).
Proof.
  split; [|vm_compute; reflexivity].
  exact (Dnormal false 1023 (2 ^ 51) ltac:(lia) ltac:(lia)).
Qed.

(** 2^64 milliseconds: the conversion to uint64_t is undefined. *)
Theorem C66_huge_refuted : exists t s m e, double t s m e /\ forall sec nsec, wait_deadline t sec nsec = SUB.
Proof.
  exists (1087 * 2 ^ 52), false, (2 ^ 52), (1087 - 1075). split.
  - pose proof (Dnormal false 1087 0 ltac:(lia) ltac:(lia)) as H. exact H.
  - intros sec nsec. vm_compute. reflexivity.
Qed.
Print Assumptions C66_huge_refuted.
