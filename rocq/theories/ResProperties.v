(** Properties C80 and C81: resolving exports and namespace objects. *)
From Coq Require Import List Arith Lia Sorting.
From Verif Require Import ResModel ResSpec ResProofs.
Import ListNotations.

(** Name 0 is "default".  0 exports everything of 1 and 2; 1 and 2 export everything
    of 3 and of 0; 3 exports 5, 0 and, under the name 6, the namespace of 4;
    1 exports 7 as 8 of 2, which exports 8 as 5 of 3; 4 has two star exports with
    different bindings of 9, and 7 exports everything of 4. *)
Definition sample : modules :=
  Modules 0
    (fun m => match m with
              | 1 => [(7, Indirect 2 8)]
              | 2 => [(8, Indirect 3 5)]
              | 3 => [(5, Local 50); (0, Local 51); (6, Namespace 4)]
              | 5 => [(9, Local 90)]
              | 6 => [(9, Local 91)]
              | _ => []
              end)
    (fun m => match m with 0 => [1; 2] | 1 => [3; 0] | 2 => [3; 0] | 4 => [5; 6] | 7 => [4] | _ => [] end)
    (fun m => match m with 0 => [(1, Some 5); (2, None); (1, Some 7)] | _ => [] end).

Definition all : list nat := [0; 1; 2; 3; 4; 5; 6; 7].

Lemma sample_closed : closed sample all.
Proof.
  intros m Hm. cbn in Hm.
  repeat (destruct Hm as [<- |Hm];
    [split; [intros r H; cbn in H; cbn; intuition lia|
             intros n r i H; cbn in H; intuition; repeat match goal with E : (_, _) = (_, _) |- _ => inversion E; clear E; subst end; cbn; auto 10]|]).
  destruct Hm.
Qed.

(** ** C80 *)

(** The answer is "not found" exactly for names that stand for nothing; a name
    that stands for one binding gives it; the answer "ambiguous" is only given
    for ambiguous names; a binding that is given is one the name stands for. *)
Theorem C80_resolve_export : forall P U f m n, closed P U -> In m U -> room P U <= f ->
  exists v rb, resolve_export P f m n = Some (v, rb) /\
    (v = RFalse <-> unknown P m n) /\
    (forall b, unique P m n b -> v = RTrue /\ rb = Some b) /\
    (v = RTrue -> exists b, rb = Some b /\ means P m n b) /\
    (v = RAmbig -> ambiguous P m n).
Proof. exact resolve_export_correct. Qed.
Print Assumptions C80_resolve_export.

(** Linking a module reports no error for names that each stand for one
    binding, and reports one if some name stands for nothing. *)
Theorem C80_names_checked_at_linking : forall P U f m, closed P U -> room P U <= f -> In m U ->
  (forall r n, In (r, n) (imported P m) -> In r U) ->
  exists b, init_env P f m = Some b /\
    (b = true -> forall r n, In (r, n) (indirect P m ++ imported P m) -> ~ unknown P r n) /\
    ((forall r n, In (r, n) (indirect P m ++ imported P m) -> exists b, unique P r n b) -> b = true).
Proof. exact init_env_correct. Qed.
Print Assumptions C80_names_checked_at_linking.

Example C80_witness : closed sample all /\ room sample all = 24 /\
  map (resolve_export sample 24 0) [5; 6; 7; 0; 4] =
    [Some (RTrue, Some (3, Some 50)); Some (RTrue, Some (4, None)); Some (RTrue, Some (3, Some 50));
     Some (RFalse, None); Some (RFalse, None)] /\
  resolve_export sample 24 4 9 = Some (RAmbig, Some (5, Some 90)) /\
  init_env sample 24 0 = Some true.
Proof. split; [apply sample_closed|]. vm_compute. repeat split. Qed.

(** A name that is ambiguous in a module can be unambiguous for the engine in a
    module that exports everything of it. *)
Theorem C80_ambiguous_refuted : exists P U f m n b,
  closed P U /\ In m U /\ room P U <= f /\ ambiguous P m n /\
  resolve_export P f m n = Some (RTrue, Some b).
Proof.
  exists sample, all, 24, 7, 9, (5, Some 90). split; [apply sample_closed|].
  split; [cbn; auto 10|]. split; [vm_compute; lia|]. split; [|vm_compute; reflexivity].
  assert (H : forall r l, In r [5; 6] -> own sample r 9 (Local l) -> means sample 7 9 (r, Some l)).
  { intros r l Hr Ho. apply means_star with 4; [intros t; discriminate|discriminate|now left|].
    apply means_star with r; [intros t; discriminate|discriminate|exact Hr|]. now apply means_local. }
  exists (5, Some 90), (6, Some 91). split; [apply H; [cbn; auto|reflexivity]|].
  split; [apply H; [cbn; auto|reflexivity]|discriminate].
Qed.
Print Assumptions C80_ambiguous_refuted.

(** ** C81 *)

(** The exported names of a namespace object are in strictly ascending order and
    are exactly the names that rjs_module_resolve_export resolves. *)
Theorem C81_namespace_names : forall P U f m, closed P U -> In m U -> room P U <= f ->
  exists l, namespace P f m = Some l /\ StronglySorted lt l /\
    forall n, In n l <-> exists rb, resolve_export P f m n = Some (RTrue, rb).
Proof. exact namespace_correct. Qed.
Print Assumptions C81_namespace_names.

(** Reading a property of it never fails its assertion: it is undefined for a
    name that stands for nothing and reads the binding of a name that stands
    for one. *)
Theorem C81_namespace_get : forall P U f m n, closed P U -> In m U -> room P U <= f ->
  exists o, ns_get P f m n = Some o /\
    (unknown P m n -> o = None) /\ (forall b, unique P m n b -> o = Some b) /\
    (forall b, o = Some b -> means P m n b).
Proof. exact ns_get_correct. Qed.
Print Assumptions C81_namespace_get.

Example C81_witness :
  map (namespace sample 24) [0; 1; 3; 4] = [Some [5; 6; 7; 8]; Some [5; 6; 7; 8]; Some [0; 5; 6]; Some []] /\
  ns_get sample 24 0 8 = Some (Some (3, Some 50)) /\ ns_get sample 24 0 0 = Some None.
Proof. vm_compute. repeat split. Qed.

(** Ambiguous names should not be there, but can be. *)
Theorem C81_no_ambiguous_names_refuted : exists P U f m n l,
  closed P U /\ In m U /\ room P U <= f /\ ambiguous P m n /\
  namespace P f m = Some l /\ In n l.
Proof.
  destruct C80_ambiguous_refuted as (P & U & f & m & n & b & HU & Hm & Hf & Ha & Hr).
  destruct (namespace_correct P U f m HU Hm Hf) as (l & Hl & _ & Hin).
  exists P, U, f, m, n, l. split; [exact HU|]. split; [exact Hm|]. split; [exact Hf|].
  split; [exact Ha|]. split; [exact Hl|]. apply Hin. eauto.
Qed.
Print Assumptions C81_no_ambiguous_names_refuted.
