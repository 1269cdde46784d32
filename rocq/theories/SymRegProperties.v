(** Property C139: the registry of symbols. *)
From Coq Require Import List ZArith Bool Lia.
From Verif Require Import SymRegModel SymRegProofs.
Import ListNotations.
Local Open Scope Z_scope.

(** *** C139: Symbol.for and Symbol.keyFor *)
(** no program makes the assertion of Symbol.for fail *)
Theorem C139_safe : forall l, exists s, run init l = Some s.
Proof. intros l. destruct (run_ok l init good_init) as (s & E & _). now exists s. Qed.
Print Assumptions C139_safe.

(** Symbol.for of a key gives a live symbol with the key as description, and keyFor gives
    the key back. Whatever the program does after that, collections included, the symbol
    stays in memory as it is, keyFor still gives the key, and Symbol.for gives the same
    symbol again. *)
Theorem C139_stable : forall l s a k, run init l = Some s -> in_use s a = false ->
  exists s1 b, symbol_for s a k = Some (s1, b) /\
    forall l2 s2, run s1 l2 = Some s2 ->
      key_for s2 b = Some k /\ description s2 b = Some (Some k) /\ held_weakly s2 b = false /\
      (forall c, exists s3, symbol_for s2 c k = Some (s3, b) /\ s3 = s2).
Proof.
  intros l s a k R U. pose proof (reach_good l s R) as G.
  destruct (for_ok s a k G U) as (s1 & b & E & G1 & L & _). exists s1, b. split; [exact E|].
  intros l2 s2 R2. destruct (run_ok l2 s1 G1) as (s2' & E2 & G2 & M).
  assert (X : s2' = s2) by congruence. subst s2'. specialize (M k _ L).
  destruct (g_key s2 G2 k _ M) as (_ & B & C). cbn [e_sym] in B, C.
  split; [unfold key_for; rewrite B; reflexivity|]. split; [exact C|].
  split; [unfold held_weakly; now rewrite B|].
  intros c. exists s2. unfold symbol_for. rewrite M. split; reflexivity.
Qed.
Print Assumptions C139_stable.

(** different keys have different symbols *)
Theorem C139_injective : forall l s a1 k1 s1 b1 l2 s2 a2 k2 s3 b2, run init l = Some s ->
  in_use s a1 = false -> symbol_for s a1 k1 = Some (s1, b1) -> run s1 l2 = Some s2 ->
  in_use s2 a2 = false -> symbol_for s2 a2 k2 = Some (s3, b2) -> (b1 = b2 <-> k1 = k2).
Proof.
  intros l s a1 k1 s1 b1 l2 s2 a2 k2 s3 b2 R U1 E1 R2 U2 E2. pose proof (reach_good l s R) as G.
  destruct (for_ok s a1 k1 G U1) as (s1' & b1' & E1' & G1 & L1 & _).
  assert (X : s1' = s1 /\ b1' = b1) by (split; congruence). destruct X as (X1 & X2). subst s1' b1'.
  destruct (run_ok l2 s1 G1) as (s2' & E2' & G2 & M2).
  assert (X : s2' = s2) by congruence. subst s2'.
  destruct (for_ok s2 a2 k2 G2 U2) as (s3' & b2' & E3 & G3 & L3 & M3 & _).
  assert (X : s3' = s3 /\ b2' = b2) by (split; congruence). destruct X as (X1 & X2). subst s3' b2'.
  pose proof (M3 _ _ (M2 _ _ L1)) as L1'.
  split; intros Q.
  - destruct (g_key s3 G3 _ _ L1') as (_ & B1 & _). destruct (g_key s3 G3 _ _ L3) as (_ & B2 & _).
    cbn [e_sym] in B1, B2. rewrite Q in B1. congruence.
  - subst k2. rewrite L1' in L3. now inversion L3.
Qed.
Print Assumptions C139_injective.

(** a symbol made by Symbol() is not in the registry, and no later step on other symbols
    puts it there as long as it stays in memory; so Symbol.for never returns it *)
Theorem C139_unregistered : forall l s a d l2 s2, run init l = Some s -> in_use s a = false ->
  run (symbol_new s a d) l2 = Some s2 ->
  (forall n s', run (symbol_new s a d) (firstn n l2) = Some s' -> in_use s' a = true) ->
  key_for s2 a = None /\ held_weakly s2 a = true /\
  (forall c k s3 b, in_use s2 c = false -> symbol_for s2 c k = Some (s3, b) -> b <> a).
Proof.
  intros l s a d l2 s2 R U R2 A. pose proof (reach_good l s R) as G.
  pose proof (good_new s a d G U) as G1. pose proof (fresh_sym s a G U) as F.
  change (by_sym s) with (by_sym (symbol_new s a d)) in F.
  revert R2 A G1 F. generalize (symbol_new s a d). clear R U G.
  induction l2 as [|x l2 IH]; intros t R2 A G1 F.
  - cbn in R2. inversion R2; subst t. unfold key_for, held_weakly. rewrite F.
    split; [reflexivity|]. split; [reflexivity|].
    intros c k s3 b Uc E Q. subst b. destruct (for_ok s2 c k G1 Uc) as (s3' & b' & E' & G3 & L & _ & _ & N).
    assert (X : s3' = s3 /\ b' = a) by (split; congruence). destruct X as (X1 & X2). subst s3' b'.
    destruct (g_key s3 G3 _ _ L) as (_ & B & _). cbn [e_sym] in B.
    destruct (Z.eq_dec a c) as [Q|Q].
    + subst c. specialize (A 0%nat s2 eq_refl). congruence.
    + rewrite N in B by exact Q. congruence.
  - cbn [run] in R2. destruct (do_step t x) as [t1|] eqn:S; [|discriminate].
    assert (A1 : forall n s', run t1 (firstn n l2) = Some s' -> in_use s' a = true).
    { intros n s' H. apply (A (Datatypes.S n) s'). cbn [firstn run]. now rewrite S. }
    pose proof (A 0%nat t eq_refl) as At.
    destruct (step_ok t x G1) as (t1' & S' & G2 & _). assert (X : t1' = t1) by congruence. subst t1'.
    apply (IH t1 R2 A1 G2). destruct x as [a' d'|a' k'|keep]; cbn [do_step] in S.
    + destruct (in_use t a'); inversion S; subst t1; exact F.
    + destruct (in_use t a') eqn:U; [inversion S; subst t1; exact F|].
      destruct (for_ok t a' k' G1 U) as (t2 & b & E & _ & _ & _ & _ & N). rewrite E in S. cbn in S.
      inversion S; subst t2. rewrite N; [exact F|]. intros Q. subst a'. congruence.
    + inversion S; subst t1. exact F.
Qed.
Print Assumptions C139_unregistered.

(** a collection frees what is not reached: memory can be used again *)
Theorem C139_collect : forall s keep a,
  in_use (collect s keep) a = true <->
  in_use s a = true /\ (In a keep \/ exists k e, In (k, e) (by_key s) /\ e_sym e = a).
Proof.
  intros s keep a. rewrite !in_use_iff. cbn [collect live]. split.
  - intros I. apply in_map_iff in I. destruct I as (p & E & I). apply filter_In in I. destruct I as (I & B).
    apply existsb_exists in B. destruct B as (x & J & Q). apply Z.eqb_eq in Q. subst x.
    rewrite E in J. split; [rewrite <- E; now apply in_map|]. apply in_app_or in J. destruct J as [J|J]; [right|now left].
    apply in_map_iff in J. destruct J as ((k & e) & E2 & J). exists k, e. now split.
  - intros (I & K). apply in_map_iff in I. destruct I as (p & E & I). apply in_map_iff. exists p. split; [exact E|].
    apply filter_In. split; [exact I|]. apply existsb_exists. exists a. split; [|apply Z.eqb_eq; exact E].
    apply in_or_app. destruct K as [K|(k & e & J & Q)]; [now right|left].
    apply in_map_iff. exists (k, e). now split.
Qed.
Print Assumptions C139_collect.

Definition prog0 : list step := [SNew 100 (Some 7); SFor 101 7; SGc []; SNew 100 None; SFor 102 8; SFor 103 7].
Example C139_witness :
  match run init prog0 with
  | Some s => key_for s 101 = Some 7 /\ key_for s 100 = None /\ key_for s 102 = Some 8 /\
      key_for s 103 = None /\ option_map snd (symbol_for s 104 7) = Some 101 /\
      option_map snd (symbol_for s 104 9) = Some 104 /\ description s 100 = Some None
  | None => False
  end.
Proof. vm_compute. repeat split; reflexivity. Qed.
