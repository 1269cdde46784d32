(** C38: the Atomics operations on one element. *)
From Coq Require Import ZArith List Bool Lia.
Import ListNotations.
From Verif Require Import BufModel BufSpec AtomModel AtomSpec AtomProofs AtomLinProofs.
Local Open Scope Z_scope.

(** Every schedule of every set of programs gives a linearizable history, and when
    all calls are done the element has the value of the sequential history; this
    needs one byte elements or programs that do not mix load and store with the
    other operations. *)
Theorem C38_linearizable_guarded : forall t le m progs sched,
  length m = esize t -> Forall is_byte m -> (esize t = 1%nat \/ unmixed progs) ->
  exists l, explains t (element t le m) (hist (run t le sched (start m progs))) l /\
    (quiet (run t le sched (start m progs)) ->
     element t le (mem (run t le sched (start m progs))) = final t (element t le m) l).
Proof. exact linearizable_guarded. Qed.
Print Assumptions C38_linearizable_guarded.

(** Two agents, loads and stores on an Int16 element and a schedule that
    interleaves them: the load returns -2, the value of the store. *)
Example C38_witness :
  let s := run INT16 true [0;1;0;1;0;1;0;0;0;1;1;1;1;1]%nat (start [1; 0] [[OStore (-2)]; [OLoad]]) in
  quiet s /\ hist s = [EInv (0, 0) (OStore (-2)); EInv (1, 0) OLoad; ERet (0, 0) (-2); ERet (1, 0) (-2)]%nat /\
  unmixed [[OStore (-2)]; [OLoad]].
Proof.
  vm_compute. split; [|split; [reflexivity|]].
  - intros g [<-|[<-|[]]]; split; reflexivity.
  - exists true. intros p o [<-|[<-|[]]] [<-|[]]; reflexivity.
Qed.

(** Without mixing there is no data race. *)
Theorem C38_no_race_guarded : forall t le m progs sched,
  length m = esize t -> Forall is_byte m -> unmixed progs -> ~ race (run t le sched (start m progs)).
Proof. exact unmixed_no_race. Qed.
Print Assumptions C38_no_race_guarded.

(** Unguarded: the mutex cannot stop all agents. *)
Theorem C38_progress : forall t le m progs sched s, s = run t le sched (start m progs) -> ~ quiet s ->
  exists a, step t le s a <> s.
Proof. exact progress. Qed.
Print Assumptions C38_progress.

Lemma two_values : forall l x i r, legal INT16 x l -> (x = 0 \/ x = -1) ->
  (forall c, In c l -> cop c = OLoad \/ cop c = ORmw Xchg (-1)) ->
  In (mkCall i OLoad r) l -> r = 0 \/ r = -1.
Proof.
  induction l as [|c l IH]; intros x i r L X C I; [destruct I|].
  destruct L as [L1 L2]. destruct I as [->|I].
  - cbn in L1. subst r. exact X.
  - eapply IH; [exact L2| |intros d D; apply C; right; exact D|exact I].
    destruct (C c (or_introl eq_refl)) as [->| ->]; cbn; [exact X|]. right. reflexivity.
Qed.

(** Atomics.load reads the two bytes of an Int16 element under the mutex, while
    Atomics.exchange does not take the mutex: the load returns -256, which the
    element never contained. *)
Theorem C38_torn_load_refuted : exists t le m progs sched,
  integer_type t = true /\ length m = esize t /\ Forall is_byte m /\
  ~ linearizable t (element t le m) (hist (run t le sched (start m progs))).
Proof.
  exists INT16, true, [0; 0], [[OLoad]; [ORmw Xchg (-1)]], [0;0;0;1;1;1;0;0;0]%nat.
  split; [reflexivity|]. split; [reflexivity|]. split; [repeat constructor; unfold is_byte; lia|].
  assert (E : hist (run INT16 true [0;0;0;1;1;1;0;0;0]%nat (start [0; 0] [[OLoad]; [ORmw Xchg (-1)]])) =
    [EInv (0, 0) OLoad; EInv (1, 0) (ORmw Xchg (-1)); ERet (1, 0) 0; ERet (0, 0) (-256)]%nat) by (vm_compute; reflexivity).
  rewrite E. change (element INT16 true [0; 0]) with 0. intros [l (N & L & R & I & B)].
  destruct (R (0, 0)%nat (-256)) as [o Io]; [cbn; auto|].
  assert (C : forall c, In c l -> cop c = OLoad \/ cop c = ORmw Xchg (-1)).
  { intros c Ic. apply I in Ic. destruct Ic as [Q|[Q|[Q|[Q|[]]]]]; injection Q as _ <- || discriminate; auto. }
  assert (o = OLoad) as ->.
  { apply I in Io. cbn in Io. destruct Io as [Q|[Q|[Q|[Q|[]]]]]; congruence. }
  destruct (two_values l 0 _ _ L (or_introl eq_refl) C Io); discriminate.
Qed.
Print Assumptions C38_torn_load_refuted.

(** Atomics.store writes byte by byte while another agent exchanges the element:
    the element ends with the value 256, though only 0 and 257 were written. *)
Lemma two_writes : forall l x, legal INT16 x l -> (x = 0 \/ x = 257) ->
  (forall c, In c l -> cop c = OStore 257 \/ cop c = ORmw Xchg 0) -> final INT16 x l = 0 \/ final INT16 x l = 257.
Proof.
  induction l as [|c l IH]; intros x L X C; [exact X|].
  destruct L as [L1 L2]. cbn [final]. apply IH; [exact L2| |intros d D; apply C; right; exact D].
  destruct (C c (or_introl eq_refl)) as [->| ->]; cbn; auto.
Qed.
Theorem C38_torn_store_refuted : exists t le m progs sched,
  integer_type t = true /\ length m = esize t /\ Forall is_byte m /\ quiet (run t le sched (start m progs)) /\
  forall l, explains t (element t le m) (hist (run t le sched (start m progs))) l ->
    element t le (mem (run t le sched (start m progs))) <> final t (element t le m) l.
Proof.
  exists INT16, true, [0; 0], [[OStore 257]; [ORmw Xchg 0]], [0;0;0;1;1;1;0;0;0]%nat.
  split; [reflexivity|]. split; [reflexivity|]. split; [repeat constructor; unfold is_byte; lia|].
  split; [vm_compute; intros g [<-|[<-|[]]]; split; reflexivity|].
  assert (E : hist (run INT16 true [0;0;0;1;1;1;0;0;0]%nat (start [0; 0] [[OStore 257]; [ORmw Xchg 0]])) =
    [EInv (0, 0) (OStore 257); EInv (1, 0) (ORmw Xchg 0); ERet (1, 0) 1; ERet (0, 0) 257]%nat) by (vm_compute; reflexivity).
  rewrite E. change (element INT16 true [0; 0]) with 0.
  change (element INT16 true (mem (run INT16 true [0;0;0;1;1;1;0;0;0]%nat (start [0; 0] [[OStore 257]; [ORmw Xchg 0]])))) with 256.
  intros l (N & L & R & I & B).
  assert (C : forall c, In c l -> cop c = OStore 257 \/ cop c = ORmw Xchg 0).
  { intros c Ic. apply I in Ic. destruct Ic as [Q|[Q|[Q|[Q|[]]]]]; injection Q as _ <- || discriminate; auto. }
  destruct (two_writes l 0 L (or_introl eq_refl) C) as [->| ->]; discriminate.
Qed.
Print Assumptions C38_torn_store_refuted.

(** For every element type, also those of one byte, load next to an atomic
    operation is a data race. *)
Theorem C38_race_refuted : forall t le m, exists progs sched, race (run t le sched (start m progs)).
Proof.
  intros t le m. exists [[OLoad]; [ORmw Add 1]], [0;0;1]%nat.
  exists 0%nat, 1%nat, (mkAgent [] 0 (PRead [])), (mkAgent [] 0 (PStart (ORmw Add 1))), true, false, (Some 0%nat), false, true, None.
  repeat split; auto.
Qed.
Print Assumptions C38_race_refuted.
