(** Properties C77, C78 and C79: linking and evaluating module graphs. *)
From Coq Require Import List ZArith Bool Arith Lia Relations.
Import ListNotations.
From Verif Require Import ModModel ModSpec ModDfs ModLink ModEval ModAsync ModProgram.

(** 0 requests 1 and 2; 1 and 2 request each other; 2 requests 3, 4 requests 0.
    [bad] is a module whose module_init_env fails, [thr] one whose body throws. *)
Definition sample (bad thr : nat) : graph :=
  Graph (fun m => match m with 0 => [1; 2] | 1 => [2] | 2 => [3; 1] | 4 => [0] | _ => [] end)
        (fun _ => false)
        (fun m => if Nat.eqb m bad then Some 7 else None)
        (fun m => if Nat.eqb m thr then Some 9 else None).

Lemma sample_closed bad thr : closed (reqs (sample bad thr)) [0; 1; 2; 3; 4].
Proof.
  split; [repeat constructor; cbn; intuition lia|].
  intros x y Hx Hy. cbn in Hx. intuition subst; cbn in *; intuition lia.
Qed.

(** ** C77 *)

Theorem C77_link_correct : forall G U s m f,
  closed (reqs G) U -> In m U -> length U <= f ->
  (forall x, stat (mods s x) <> Linking /\ stat (mods s x) <> Evaluating) ->
  (forall x, In x U -> stat (mods s x) = Unlinked \/ linked (stat (mods s x)) = true) ->
  (forall x y, In x U -> linked (stat (mods s x)) = true -> In y (reqs G x) -> linked (stat (mods s y)) = true) ->
  let (r, s') := link G f m s in
  match r with
  | Ok _ =>
      (forall x, stat (mods s x) = Unlinked -> reach (reqs G) m x -> stat (mods s' x) = Linked) /\
      (forall x, stat (mods s x) <> Unlinked \/ ~ reach (reqs G) m x -> stat (mods s' x) = stat (mods s x)) /\
      (forall x, rest (mods s' x) = rest (mods s x)) /\ cnt s' = cnt s /\
      exists new, log s' = rev (map Init new) ++ log s /\ NoDup new /\
        (forall x, In x new <-> stat (mods s x) = Unlinked /\ reach (reqs G) m x) /\
        (forall x, In x new -> init G x = None) /\
        in_order (reqs G) (fun y => stat (mods s y) = Unlinked) new
  | Thrown e =>
      (exists x, reach (reqs G) m x /\ stat (mods s x) = Unlinked /\ init G x = Some e) /\
      stat (mods s' m) = Unlinked /\
      (forall x, stat (mods s' x) = stat (mods s x) \/
         (stat (mods s x) = Unlinked /\ stat (mods s' x) = Linked /\ reach (reqs G) m x /\
          forall y, reach (reqs G) x y -> linked (stat (mods s' y)) = true)) /\
      (forall x, rest (mods s' x) = rest (mods s x)) /\ cnt s' = cnt s /\
      exists new, log s' = rev (map Init new) ++ log s
  | _ => False
  end.
Proof. exact link_correct. Qed.
Print Assumptions C77_link_correct.

Example C77_witness :
  closed (reqs (sample 9 9)) [0; 1; 2; 3; 4] /\ (forall x, stat (mods start x) = Unlinked) /\
  (let (r, s) := link (sample 9 9) 5 0 start in
   (r, inits (log s), map (fun x => stat (mods s x)) [0; 1; 2; 3; 4])) =
  (Ok tt, [3; 2; 1; 0], [Linked; Linked; Linked; Linked; Unlinked]).
Proof. split; [apply sample_closed|]. split; [reflexivity|vm_compute; reflexivity]. Qed.

Example C77_witness_error :
  (let (r, s) := link (sample 1 9) 5 0 start in
   (r, inits (log s), map (fun x => stat (mods s x)) [0; 1; 2; 3; 4])) =
  (Thrown 7, [3; 2; 1], [Unlinked; Unlinked; Unlinked; Linked; Unlinked]).
Proof. vm_compute; reflexivity. Qed.

(** ** C78 *)

Theorem C78_evaluate_correct : forall G U s m f,
  closed (reqs G) U -> In m U -> length U <= f ->
  (forall x, In x U -> tla G x = false) -> calm (reqs G) U s ->
  exists r s', evaluate G f m s = (Ok r, s') /\ evaluated (reqs G) (body G) U m r s s'.
Proof. exact evaluate_correct. Qed.
Print Assumptions C78_evaluate_correct.

(** A program that imports any modules one after the other never fails an
    assertion, runs every body at most once and in order, and every module that
    counts as evaluated without an error did run. *)
Theorem C78_programs : forall G U f l,
  closed (reqs G) U -> (forall x, In x U -> tla G x = false) -> length U <= f ->
  (forall m, In m l -> In m U) ->
  exists s, imports G f l start = (Ok tt, s) /\
    NoDup (starts (log s)) /\
    in_order (reqs G) (fun _ => True) (starts (log s)) /\
    (forall x, In x (starts (log s)) -> stat (mods s x) = Evaluated) /\
    (forall x, In x U -> stat (mods s x) = Evaluated -> err (mods s x) = None -> In x (starts (log s))).
Proof.
  intros G U f l HU Ht Hf Hl.
  destruct (imports_well G U HU Ht f Hf l start Hl (start_well G U)) as (s & E & Hw).
  exists s. rewrite starts_sta. repeat split.
  - exact E.
  - apply NoDup_rev. exact (w_once _ _ _ Hw).
  - exact (w_order _ _ _ Hw).
  - intros x Hx. apply in_rev in Hx. exact (proj2 (w_late _ _ _ Hw x Hx)).
  - intros x Hx H1 H2. apply -> in_rev. exact (w_ran _ _ _ Hw x Hx H1 H2).
Qed.
Print Assumptions C78_programs.

Definition linked_sample (thr : nat) : st := snd (link (sample 9 thr) 5 4 start).

Example C78_witness :
  calm (reqs (sample 9 9)) [0; 1; 2; 3; 4] (linked_sample 9) /\
  (let (r, s) := evaluate (sample 9 9) 5 0 (linked_sample 9) in
   (r, starts (log s), top (mods s 0), stat (mods s 4))) =
  (Ok 0, [3; 2; 1; 0], Some Resolved, Linked).
Proof.
  split; [|vm_compute; reflexivity].
  intros x Hx. left. cbn in Hx.
  repeat (destruct Hx as [<- |Hx]; [vm_compute; auto 10|]). destruct Hx.
Qed.

Example C78_witness_error :
  (let (r, s) := imports (sample 9 1) 5 [0; 2; 4; 3] start in
   (r, starts (log s), map (fun x => top (mods s x)) [0; 2; 4; 3])) =
  (Ok tt, [3; 2; 1], [Some (Rejected 9); Some (Rejected 9); Some (Rejected 9); Some Resolved]).
Proof. vm_compute; reflexivity. Qed.

(** ** C79 *)

(** With top level await, whatever the program does and however the awaiting
    bodies end, even when an assertion fails on the way: no body is started
    twice. *)
Theorem C79_started_at_most_once : forall G f l,
  NoDup (starts (log (snd (run G f l start)))).
Proof.
  intros G f l. rewrite starts_sta. apply NoDup_rev.
  exact (proj1 (proj2 (run_fine G f l start start_I))).
Qed.
Print Assumptions C79_started_at_most_once.

(** A module that was evaluated stays so, with the same error or none, and a
    promise that was settled stays as it is. *)
Theorem C79_results_stay : forall G f l1 l2 x p,
  let s := snd (run G f l1 start) in
  let s' := snd (run G f l2 s) in
  (stat (mods s x) = Evaluated -> stat (mods s' x) = Evaluated /\ err (mods s' x) = err (mods s x)) /\
  (top (mods s x) = Some p -> p <> Waiting -> top (mods s' x) = Some p).
Proof.
  intros G f l1 l2 x p s s'.
  destruct (proj1 (run_fine G f l2 s (proj2 (run_fine G f l1 start start_I)))) as (_ & H1 & H2).
  split; [apply H1|apply H2].
Qed.
Print Assumptions C79_results_stay.

(** 0 requests 1 and 3, 1 requests 2; 2 and 3 await. *)
Definition two_waits : graph :=
  Graph (fun m => match m with 0 => [1; 3] | 1 => [2] | _ => [] end)
        (fun m => Nat.leb 2 m) (fun _ => None) (fun _ => None).
(** 0 requests 1, 1 requests 2, 3 requests 1; 2 awaits and, if [b], 0 as well. *)
Definition chain (b : bool) : graph :=
  Graph (fun m => match m with 0 => [1] | 1 => [2] | 3 => [1] | _ => [] end)
        (fun m => Nat.eqb m 2 || b && Nat.eqb m 0) (fun _ => None) (fun _ => None).

Example C79_witness :
  (let (r, s) := run two_waits 20 [OLink 0; OEval 0; ODone 3 None; ODone 2 None] start in
   (r, starts (log s), finishes (log s), top (mods s 0))) =
  (Ok tt, [2; 3; 1; 0], [3; 2; 1; 0], Some Resolved).
Proof. vm_compute; reflexivity. Qed.

(** A module can start, and the promise of its import be resolved, before a
    module it requests has ended. *)
Theorem C79_starts_after_requested_refuted : exists G l m r,
  let s := snd (run G 20 l start) in
  fst (run G 20 l start) = Ok tt /\ In r (reqs G m) /\ ~ reach (reqs G) r m /\
  In m (starts (log s)) /\ ~ In r (finishes (log s)) /\
  top (mods s m) = Some Resolved /\ stat (mods s r) = EvalAsync.
Proof.
  exists two_waits, [OLink 0; OEval 0; ODone 2 None], 0, 3. intros s.
  split; [vm_compute; reflexivity|].
  split; [right; now left|].
  split; [clear s; intros H; apply clos_rt_rt1n in H; inversion H as [|y z Hy]; subst; destruct Hy|].
  split; [vm_compute; auto 10|].
  split; [vm_compute; intuition lia|].
  split; vm_compute; reflexivity.
Qed.
Print Assumptions C79_starts_after_requested_refuted.

(** When that module then rejects, or when a module that awaits itself waits for
    one that does not, an assertion fails. *)
Theorem C79_no_assertion_fails_refuted :
  fst (run two_waits 20 [OLink 0; OEval 0; ODone 2 None; ODone 3 (Some 7)] start) = Abort /\
  fst (run (chain true) 20 [OLink 0; OEval 0; ODone 2 None] start) = Abort.
Proof. split; vm_compute; reflexivity. Qed.
Print Assumptions C79_no_assertion_fails_refuted.

(** An import of a module whose requested modules are all evaluated can wait for
    ever: no body runs any more and the module never starts. *)
Theorem C79_every_import_settles_refuted : exists G l m,
  let s := snd (run G 20 l start) in
  fst (run G 20 l start) = Ok tt /\ top (mods s m) = Some Waiting /\ ~ In m (starts (log s)) /\
  (forall r, reach (reqs G) m r -> r <> m -> stat (mods s r) = Evaluated /\ err (mods s r) = None) /\
  (forall x, live (mods s x) = false).
Proof.
  exists (chain false), [OLink 0; OEval 0; ODone 2 None; OLink 3; OEval 3], 3. intros s.
  split; [vm_compute; reflexivity|].
  split; [vm_compute; reflexivity|].
  split; [vm_compute; intuition lia|].
  split.
  - intros r H Hr. assert (Hc : r = 3 \/ r = 1 \/ r = 2).
    { clear s. apply clos_rt_rt1n in H. inversion H as [|y z Hy H1]; subst; auto. cbn in Hy.
      destruct Hy as [<- |[]]. inversion H1 as [|y z Hy H2]; subst; auto. cbn in Hy.
      destruct Hy as [<- |[]]. inversion H2 as [|y z Hy H3]; subst; auto. destruct Hy. }
    destruct Hc as [-> |[-> | ->]]; [congruence| |]; split; vm_compute; reflexivity.
  - intros [|[|[|[|x]]]]; vm_compute; reflexivity.
Qed.
Print Assumptions C79_every_import_settles_refuted.
