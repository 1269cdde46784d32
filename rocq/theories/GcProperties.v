(** C14, C15, C16, C46, C60: the collector, weak references and finalization. *)
From Coq Require Import List Bool Arith ZArith Lia.
Import ListNotations.
From Verif Require Import GcModel GcSpec GcProofs.

(** ** Checking that a concrete list of operations is an allowed history *)
Definition inb (t : nat) (l : list nat) : bool := existsb (Nat.eqb t) l.
Definition mop_okb (m : mem) (op : mop) : bool :=
  let ok := fun t => inb t (things m) in
  match op with
  | New t => negb (ok t)
  | Link l r => forallb ok r && forallb (fun t => forallb ok (l t)) (things m)
  | NewRef b r => ok b && ok r && negb (inb b (map fst (target m)))
  | CollSet b k v => ok b && ok k && match v with Some x => ok x | None => true end
  | NewReg t f => ok t && ok f && negb (inb t (map fst (funcs m)))
  | Register r t h k => ok r && inb r (map fst (funcs m)) && ok t && forallb ok (held_things h) && match k with Some x => ok x | None => true end
  | _ => true
  end.
Definition freshb (m : mem) (op : mop) : bool :=
  match op with Register r _ _ (Some k) => negb (existsb (same_token r k) (cbs m)) | _ => true end.
Fixpoint okrun (fresh : bool) (m : mem) (ops : list mop) : option mem :=
  match ops with
  | [] => Some m
  | op :: r => if mop_okb m op && (negb fresh || freshb m op) then match m_step m op with Some m' => okrun fresh m' r | None => None end else None
  end.
Lemma inb_in : forall t l, inb t l = true <-> In t l.
Proof. exact exb_in. Qed.
Lemma ninb_in : forall t l, negb (inb t l) = true <-> ~ In t l.
Proof. intros t l. rewrite negb_true_iff, <- not_true_iff_false, inb_in. reflexivity. Qed.
Lemma mop_okb_ok : forall m op, mop_okb m op = true -> mop_ok m op.
Proof.
  intros m op. destruct op; cbn [mop_okb mop_ok]; rewrite ?andb_true_iff, ?inb_in, ?ninb_in; auto.
  - intros [A B]. rewrite forallb_forall in A. rewrite forallb_forall in B. split; [intros t T; apply inb_in; apply A; exact T|]. intros t u T U. specialize (B t T). rewrite forallb_forall in B. apply inb_in. apply B. exact U.
  - tauto.
  - intros [A B]. split; [apply A|]. split; [apply A|]. intros x ->. apply inb_in. exact B.
  - tauto.
  - intros ((((A & B) & C) & D) & E). rewrite forallb_forall in D. repeat (split; [assumption|]). split; [intros x X; apply inb_in; apply D; exact X|]. intros x ->. apply inb_in. exact E.
Qed.
Lemma freshb_ok : forall m op, freshb m op = true -> fresh_token m op.
Proof. intros m op. destruct op as [| | | | | |r t h [k|]| | |]; cbn [freshb fresh_token]; auto. intros H c C. rewrite negb_true_iff in H. destruct (same_token r k c) eqn:Q; [|reflexivity]. rewrite <- H. symmetry. apply existsb_exists. exists c. auto. Qed.
Lemma okrun_hist : forall f ops m pre m', hist empty_mem pre m -> okrun f m ops = Some m' -> hist empty_mem (pre ++ ops) m'.
Proof.
  intros f ops. induction ops as [|op ops IH]; intros m pre m' H E; cbn [okrun] in E; [injection E as <-; rewrite app_nil_r; exact H|].
  destruct (mop_okb m op && (negb f || freshb m op)) eqn:Q; [|discriminate]. destruct (m_step m op) as [m1|] eqn:S1; [|discriminate]. apply andb_prop in Q.
  replace (pre ++ op :: ops) with ((pre ++ [op]) ++ ops) by (rewrite <- app_assoc; reflexivity). apply (IH m1); [|exact E]. eapply h_snoc; [exact H | apply mop_okb_ok; apply Q | exact S1].
Qed.
Lemma okrun_reg : forall ops m pre p d m', reg_hist pre m p d -> okrun true m ops = Some m' -> exists p' d', reg_hist (pre ++ ops) m' p' d'.
Proof.
  intros ops. induction ops as [|op ops IH]; intros m pre p d m' H E; cbn [okrun] in E; [injection E as <-; rewrite app_nil_r; exists p, d; exact H|].
  destruct (mop_okb m op && (negb true || freshb m op)) eqn:Q; [|discriminate]. destruct (m_step m op) as [m1|] eqn:S1; [|discriminate]. apply andb_prop in Q. destruct Q as [Q1 Q2].
  replace (pre ++ op :: ops) with ((pre ++ [op]) ++ ops) by (rewrite <- app_assoc; reflexivity). destruct (reg_hist_spec _ _ _ _ H) as (<- & _ & TO).
  pose proof (hist_wf _ _ _ wf_empty (reg_hist_hist _ _ _ _ H)) as W. destruct (step_reg m op m1 W (mop_okb_ok _ _ Q1) (freshb_ok _ _ Q2) TO S1) as (due & RS & _).
  eapply IH; [|exact E]. eapply rh_snoc; [exact H | apply mop_okb_ok; exact Q1 | apply freshb_ok; exact Q2 | exact S1 | exact RS].
Qed.
Definition run_to (ops : list mop) : mem := match okrun false empty_mem ops with Some m => m | None => empty_mem end.
Lemma run_to_hist : forall ops, match okrun false empty_mem ops with Some _ => true | None => false end = true -> hist empty_mem ops (run_to ops).
Proof. intros ops H. unfold run_to. destruct (okrun false empty_mem ops) as [m|] eqn:E; [|discriminate]. apply (okrun_hist false ops empty_mem []); [constructor | exact E]. Qed.

(** a graph with two live things, a cycle of garbage and a mark stack of one slot *)
Definition kids_ex (t : nat) : list nat := match t with 1 => [2; 3; 4] | 2 => [1] | 5 => [6] | 6 => [5; 2] | _ => [] end.
Definition things_ex : list nat := [1; 2; 3; 4; 5; 6].

Theorem C14_reachable_things_survive :
  forall kids cap things roots s, NoDup things -> closed kids roots things -> no_marks s ->
  exists ts s', collect kids cap things roots s = Some (ts, s') /\ forall t, live kids roots t -> In t ts.
Proof. intros kids cap things roots s A B C. destruct (collect_exact kids cap things roots s A B C) as (ts & s' & E & H & _). exists ts, s'. split; [exact E|]. intros t L. apply H. exact L. Qed.
Print Assumptions C14_reachable_things_survive.
Example C14_witness : NoDup things_ex /\ closed kids_ex [1] things_ex /\ no_marks clean.
Proof.
  split; [repeat constructor; cbn; lia|]. split; [|split; [intro t; split; reflexivity | reflexivity]]. split.
  - intros t [<- | []]. cbn. auto.
  - intros t u T. cbn in T. cbn. intuition (subst; cbn in *; intuition).
Qed.
(** a mark stack without any slot still finds everything *)
Example C14_witness_overflow : option_map fst (collect kids_ex 0 things_ex [1] clean) = Some [1; 2; 3; 4] /\ option_map fst (collect kids_ex 1 things_ex [1] clean) = Some [1; 2; 3; 4].
Proof. split; reflexivity. Qed.

Theorem C15_only_reachable_things_stay :
  forall kids cap things roots s, NoDup things -> closed kids roots things -> no_marks s ->
  exists ts s', collect kids cap things roots s = Some (ts, s') /\ (forall t, In t ts -> live kids roots t) /\
    (exists p, ts = filter p things) /\ no_marks s' /\ NoDup ts /\ closed kids roots ts.
Proof.
  intros kids cap things roots s A B C. destruct (collect_exact kids cap things roots s A B C) as (ts & s' & E & H & P & M & CL & ND). exists ts, s'. split; [exact E|].
  split; [intros t T; apply H; exact T|]. auto.
Qed.
Print Assumptions C15_only_reachable_things_stay.

(** any number of collections between any other operations *)
Theorem C15_collections_in_a_history :
  forall ops m cap, hist empty_mem ops m ->
  exists m', m_step m (Gc cap) = Some m' /\ (forall t, In t (things m') <-> alive m t) /\ no_marks (flags m').
Proof.
  intros ops m cap H. pose proof (hist_wf _ _ _ wf_empty H) as W. destruct (gc_spec cap m W) as (m' & E & C & W'). exists m'. split; [exact E|]. split; [apply (c_things _ _ C) | apply (wf_marks _ W')].
Qed.
Print Assumptions C15_collections_in_a_history.

Definition links_ex (t : nat) : list nat := match t with 1 => [2] | 2 => [1] | 4 => [3] | _ => [] end.
Definition ops15 : list mop := [New 1; New 2; New 3; New 4; Link links_ex [4]].
Example C15_witness : hist empty_mem ops15 (run_to ops15) /\ option_map things (m_step (run_to ops15) (Gc 0)) = Some [4; 3].
Proof. split; [apply run_to_hist; vm_compute; reflexivity | vm_compute; reflexivity]. Qed.

(** C16 fails: the value of a live entry is freed, and get returns the freed thing *)
Definition ops16 : list mop := [New 1; New 2; New 3; CollSet 1 2 (Some 3); Link (fun _ => []) [1; 2]].
Theorem C16_weak_map_value_kept_refuted :
  exists ops m m' b k v cap, hist empty_mem ops m /\ In b (roots m) /\ In k (roots m) /\ coll_get m b k = Some (Some v) /\ elive m v /\
    m_step m (Gc cap) = Some m' /\ coll_get m' b k = Some (Some v) /\ ~ In v (things m').
Proof.
  exists ops16, (run_to ops16), (run_to (ops16 ++ [Gc 8])), 1, 2, 3, 8.
  split; [apply run_to_hist; vm_compute; reflexivity|]. split; [vm_compute; auto|]. split; [vm_compute; auto|]. split; [vm_compute; reflexivity|].
  split; [apply (el_value _ 1 2 3); [vm_compute; auto | apply el_root; vm_compute; auto | apply el_root; vm_compute; auto]|].
  split; [reflexivity|]. split; [vm_compute; reflexivity|]. vm_compute. intuition discriminate.
Qed.
Print Assumptions C16_weak_map_value_kept_refuted.
(** what holds: the entry stays, its value stays exactly when something else keeps it *)
Theorem C16_weak_map_value_actual :
  forall ops m m' cap b k v, hist empty_mem ops m -> m_step m (Gc cap) = Some m' -> In (b, k, Some v) (coll m) -> alive m b -> alive m k ->
  In (b, k, Some v) (coll m') /\ (In v (things m') <-> alive m v).
Proof.
  intros ops m m' cap b k v H E I1 A1 A2. pose proof (hist_wf _ _ _ wf_empty H) as W. destruct (gc_spec cap m W) as (m2 & E2 & C & _). cbn [m_step] in E. rewrite E2 in E. injection E as <-.
  split; [apply (c_entries _ _ C (b, k, Some v)); auto | apply (c_things _ _ C)].
Qed.
Print Assumptions C16_weak_map_value_actual.

(** C60: weak collections and WeakRefs *)
Theorem C60_weak_references_never_dangle :
  forall ops m, hist empty_mem ops m ->
  (forall b k v, In (b, k, v) (coll m) -> In b (things m) /\ In k (things m)) /\
  (forall b r, In (b, Some r) (target m) -> In b (things m) /\ In r (things m)).
Proof.
  intros ops m H. pose proof (hist_wf _ _ _ wf_empty H) as W. split.
  - intros b k v X. apply (wf_weak _ W _ (wf_coll _ W b k v X)).
  - intros b r X. apply (wf_weak _ W _ (wf_tgt _ W b r X)).
Qed.
Print Assumptions C60_weak_references_never_dangle.
Theorem C60_entries_disappear_exactly_with_their_things :
  forall ops m m' cap, hist empty_mem ops m -> m_step m (Gc cap) = Some m' ->
  (forall b k v, In (b, k, v) (coll m') <-> In (b, k, v) (coll m) /\ alive m b /\ alive m k) /\
  (forall b r, In (b, Some r) (target m') <-> In (b, Some r) (target m) /\ alive m b /\ alive m r) /\
  (forall b, In b (map fst (target m')) <-> In b (map fst (target m)) /\ alive m b).
Proof.
  intros ops m m' cap H E. pose proof (hist_wf _ _ _ wf_empty H) as W. destruct (gc_spec cap m W) as (m2 & E2 & C & _). cbn [m_step] in E. rewrite E2 in E. injection E as <-.
  split; [intros b k v; apply (c_entries _ _ C (b, k, v))|].
  assert (X : forall r, existsb (Nat.eqb r) (things m2) = true <-> alive m r) by (intro r; rewrite exb_in; apply (c_things _ _ C)).
  split.
  - intros b r. rewrite (c_target _ _ C). split.
    + intros (A & y & Y & Q). destruct y as [r'|]; [|discriminate]. destruct (existsb (Nat.eqb r') (things m2)) eqn:Z; [|discriminate]. injection Q as <-. apply X in Z. auto.
    + intros (Y & A & B). split; [exact A|]. exists (Some r). split; [exact Y|]. rewrite (proj2 (X r) B). reflexivity.
  - intro b. rewrite !in_map_iff. split.
    + intros ([b' x] & Q & Y). cbn [fst] in Q. subst b'. apply (c_target _ _ C) in Y. destruct Y as (A & y & Y & _). split; [exists (b, y); auto | exact A].
    + intros (([b' y] & Q & Y) & A). cbn [fst] in Q. subst b'. eexists (b, _). split; [reflexivity|]. apply (c_target _ _ C). split; [exact A|]. exists y. split; [exact Y | reflexivity].
Qed.
Print Assumptions C60_entries_disappear_exactly_with_their_things.
Definition ops60 : list mop := [New 1; New 2; New 3; New 4; CollSet 1 2 None; CollSet 1 3 None; NewRef 4 3; Link (fun _ => []) [1; 2; 4]].
Example C60_witness : hist empty_mem ops60 (run_to ops60) /\
  option_map (fun m => (coll m, target m)) (m_step (run_to ops60) (Gc 8)) = Some ([(1, 2, None)], [(4, None)]).
Proof. split; [apply run_to_hist; vm_compute; reflexivity | vm_compute; reflexivity]. Qed.

(** C46 fails when a token is registered twice: one of two registrations is forgotten *)
Definition ops46 : list mop :=
  [New 1; New 2; New 3; New 4; New 5; NewReg 1 2; Register 1 3 (HPrim 10) (Some 5); Register 1 4 (HPrim 20) (Some 5); Link (fun _ => []) [1; 2; 5]; Gc 8].
Theorem C46_each_registration_honoured_refuted :
  exists ops m, hist empty_mem ops m /\ ops = ops46 /\ ~ In 3 (things m) /\ ~ In 4 (things m) /\ cbs m = [] /\ jobs m = [(2, HPrim 20)].
Proof.
  exists ops46, (run_to ops46). split; [apply run_to_hist; vm_compute; reflexivity|]. split; [reflexivity|]. split; [vm_compute; intuition discriminate|]. split; [vm_compute; intuition discriminate|]. split; vm_compute; reflexivity.
Qed.
Print Assumptions C46_each_registration_honoured_refuted.
(** without reuse of a token in use: the callbacks are exactly the due ones, in order, and
    the pending registrations are exactly the remaining ones *)
Theorem C46_each_registration_honoured_fresh_tokens :
  forall ops m p d, reg_hist ops m p d -> cbs m = p /\ exists ran, d = ran ++ jobs m.
Proof. intros ops m p d H. destruct (reg_hist_spec _ _ _ _ H) as (A & B & _). split; assumption. Qed.
Print Assumptions C46_each_registration_honoured_fresh_tokens.
Theorem C46_every_fresh_history_is_described :
  forall ops m, hist empty_mem ops m ->
  (forall ops1 m1 op, hist empty_mem ops1 m1 -> (exists rest, ops = ops1 ++ op :: rest) -> fresh_token m1 op) ->
  exists p d, reg_hist ops m p d.
Proof. exact reg_hist_exists. Qed.
Print Assumptions C46_every_fresh_history_is_described.
Definition ops46b : list mop :=
  [New 1; New 2; New 3; New 4; NewReg 1 2; Register 1 3 (HPrim 10) None; Register 1 4 (HPrim 20) (Some 4); Link (fun _ => []) [1; 2; 4]].
Example C46_witness : exists m p d, reg_hist ops46b m p d /\ option_map (fun m => (jobs m, length (cbs m))) (m_step m (Gc 8)) = Some ([(2, HPrim 10)], 1).
Proof.
  assert (H : exists m, okrun true empty_mem ops46b = Some m /\ option_map (fun m => (jobs m, length (cbs m))) (m_step m (Gc 8)) = Some ([(2, HPrim 10)], 1)).
  { exists (run_to ops46b). split; vm_compute; reflexivity. }
  destruct H as (m & E & J). destruct (okrun_reg ops46b empty_mem [] [] [] m rh_nil E) as (p & d & H). exists m, p, d. split; [exact H | exact J].
Qed.
