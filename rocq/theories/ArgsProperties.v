(** Properties of the mapped arguments object. *)
From Coq Require Import List ZArith Bool Lia.
Import ListNotations.
From Verif Require Import StoreModel ObjModel ObjSpec ObjProofs ArgsModel ArgsSpec ArgsProofs.
Local Open Scope Z_scope.

(** C89: the arguments object of a sloppy function with simple parameters starts
    with the arguments linked to the parameters as the standard says, and every
    sequence of operations on it and on the parameters gives the answers of the
    standard's arguments exotic object. *)
Theorem C89_arguments_are_standard : forall params bindings vals rest e ops,
  (forall p, In p params -> In p bindings) -> params_hold params vals e ->
  (forall n p, rest n = Some p -> wfp p) -> Forall op_fits ops ->
  exists s, starts params vals (fun n => option_map view (rest n)) e s /\
            sruns s ops (run (new_args params bindings vals rest e) ops).
Proof. exact arguments_are_standard. Qed.
Print Assumptions C89_arguments_are_standard.

(** The specification leaves no choice: from states that agree, the same
    operations give the same answers. *)
Theorem C89_arguments_determined : forall params vals rest e ops s s' l l',
  starts params vals rest e s -> starts params vals rest e s' ->
  Forall op_fits ops ->
  sruns s ops l -> sruns s' ops l' -> l = l'.
Proof. exact arguments_determined. Qed.
Print Assumptions C89_arguments_determined.

(** function f(a, b, a) called with 10, 20, 30, 40; a is 1 and b is 2. *)
Definition only_val (v : val) : desc := value_only v.
Definition lock : desc := {| d_val := None; d_wr := Some false; d_get := None; d_set := None; d_en := None; d_cf := None |}.
Definition ex_e (p : Z) : val := if p =? 1 then Other 30 else if p =? 2 then Other 20 else Undef.
Definition ex_vals := [Other 10; Other 20; Other 30; Other 40].
Example C89_witness :
  (forall p, In p [1; 2; 1] -> In p [1; 2]) /\ params_hold [1; 2; 1] ex_vals ex_e /\
  run (new_args [1; 2; 1] [1; 2] ex_vals (fun _ => None) ex_e)
    [Get (KIdx 0); Write 1 (Other 5); Get (KIdx 0); Get (KIdx 2);
     Set_ (KIdx 1) (Other 6) true true; Read 2; Define (KIdx 1) lock; Write 2 (Other 7); Get (KIdx 1); Read 2;
     Delete (KIdx 2); Define (KIdx 2) (only_val (Other 8)); Read 1; Own (KIdx 3)] =
    [AVal (Other 10); ABool true; AVal (Other 10); AVal (Other 5);
     ABool true; AVal (Other 6); ABool true; ABool true; AVal (Other 6); AVal (Other 7);
     ABool true; ABool true; AVal (Other 5);
     ADesc (Some {| d_val := Some (Other 40); d_wr := Some true; d_get := None; d_set := None; d_en := Some true; d_cf := Some true |})].
Proof.
  split; [cbn; tauto|]. split; [|vm_compute; reflexivity].
  intros i p (L & A & B). cbn in L. destruct i as [|[|[|[|i]]]]; cbn in A; try lia; try discriminate A; injection A as <-; try reflexivity.
  exfalso. apply (B 2%nat); [lia|reflexivity].
Qed.
