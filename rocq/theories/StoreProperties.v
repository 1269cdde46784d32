(** C05: indexed properties as a finite map. *)
From Coq Require Import ZArith List Lia Sorting.Sorted.
Import ListNotations.
From Verif Require Import StrModel StoreModel StoreSpec StoreProofs ObjModel HeapProofs.
Local Open Scope Z_scope.

Definition some_prop : prop := {| acc := false; wr := true; en := true; cf := true; pval := Num 7; pget := Undef; pset := Undef |}.

(** Refuted: o[100] = 7; delete o[100]; o[0] = 7 writes through a null pointer *)
Theorem C05_never_crashes_refuted : exists h, Forall (fun o => valid_index (op_index o)) h /\ s_run empty_store h = SUB.
Proof.
  exists [Put 100 some_prop; Del 100; Put 0 some_prop]. split; [repeat constructor; cbn; lia | vm_compute; reflexivity].
Qed.
Print Assumptions C05_never_crashes_refuted.

(** The crash happens exactly when index 0, 1 or 2 is stored while the tree form is empty *)
Theorem C05_crash_exactly : forall h, Forall (fun o => valid_index (op_index o)) h ->
  (s_run empty_store h = SUB <->
   exists h1 i p h2 s1, h = h1 ++ Put i p :: h2 /\ s_run empty_store h1 = SOk s1 /\ its s1 = Tree [] /\ i < 3).
Proof. exact crash_exactly. Qed.
Print Assumptions C05_crash_exactly.

(** Otherwise the storage is the finite map of the history, for lookups and listings *)
Theorem C05_finite_map : forall h s, Forall (fun o => valid_index (op_index o)) h -> s_run empty_store h = SOk s ->
  (forall i, valid_index i -> s_lookup s i = SOk (spec_run h i)) /\
  exists ix, index_keys s = SOk ix /\ StronglySorted Z.lt ix /\ (forall i, In i ix <-> spec_run h i <> None).
Proof. exact finite_map. Qed.
Print Assumptions C05_finite_map.

Example C05_witness : exists s, s_run empty_store [Put 1 some_prop; Put 100 some_prop; Put 0 some_prop; Del 1; Put 5000000 some_prop; Del 100; Put 2 some_prop] = SOk s /\
  index_keys s = SOk [0; 2; 5000000] /\ s_lookup s 100 = SOk None.
Proof. eexists. split; [vm_compute; reflexivity|]. split; vm_compute; reflexivity. Qed.
