(** C06-C10, C48, C58, C59: ordinary objects and arrays.  Histories start from the empty
    heap; [oop] lists the operations, [op_ok] what a program can pass. *)
From Coq Require Import ZArith List Bool Lia Sorting.Sorted.
Import ListNotations.
From Verif Require Import StrModel StoreModel StoreSpec StoreProofs ObjModel ObjSpec ObjProofs ArrProofs HeapProofs LevelProofs.
Local Open Scope Z_scope.

(** C06: length of an array is an integer in 0..2^32-1 above every own index *)
Theorem C06_length_bounds_every_index : forall ops h x o, Forall op_ok ops -> o_run [] ops = Done h -> nth_error h x = Some o -> kind o = Array ->
  exists n w e, own o (KName length_key) (AData (Num n) w e false) /\ 0 <= n <= 4294967295 /\ (forall i, valid_index i -> ~ lacks o (KIdx i) -> i < n).
Proof. exact array_length. Qed.
Print Assumptions C06_length_bounds_every_index.

(** C07: storing a smaller length removes exactly the tail, down to the highest
    non-configurable element *)
Theorem C07_truncation_exact : forall ops h x o n m e (mkro : bool), Forall op_ok ops -> o_run [] ops = Done h -> nth_error h x = Some o -> kind o = Array ->
  own o (KName length_key) (AData (Num n) true e false) -> 0 <= m < n ->
  exists o' (r : res) b,
    o_step h (Define x (KName length_key) {| d_val := Some (Num m); d_wr := if mkro then Some false else None; d_get := None; d_set := None; d_en := None; d_cf := None |} None) = Done (put h x o', r) /\
    keep_below o o' b /\ own o' (KName length_key) (AData (Num b) (negb mkro) e false) /\
    (forall nk, nk <> length_key -> get_own o' (KName nk) = get_own o (KName nk)) /\
    kind o' = Array /\ proto o' = proto o /\ ext o' = ext o /\
    ((r = RTrue /\ b = m /\ forall i, valid_index i -> m <= i -> may_go o i) \/
     (r = RFalse /\ m < b /\ valid_index (b - 1) /\ (exists a, own o (KIdx (b - 1)) a /\ non_configurable a) /\ forall i, valid_index i -> b <= i -> may_go o i)).
Proof. exact truncation. Qed.
Print Assumptions C07_truncation_exact.

(** C07: a non-writable length never changes and admits no element at or beyond it *)
Theorem C07_fixed_length_is_final : forall ops1 h1 x o n e ops2 h2, Forall op_ok (ops1 ++ ops2) -> o_run [] ops1 = Done h1 -> nth_error h1 x = Some o -> kind o = Array ->
  own o (KName length_key) (AData (Num n) false e false) -> o_run h1 ops2 = Done h2 ->
  exists o2, nth_error h2 x = Some o2 /\ own o2 (KName length_key) (AData (Num n) false e false) /\ (forall i, valid_index i -> n <= i -> lacks o2 (KIdx i)).
Proof. exact fixed_length_final. Qed.
Print Assumptions C07_fixed_length_is_final.

(** C08: a non-configurable property changes in no forbidden way in any later history *)
Theorem C08_non_configurable_stable : forall ops1 h1 x o k a ops2 h2, Forall op_ok (ops1 ++ ops2) -> o_run [] ops1 = Done h1 -> nth_error h1 x = Some o ->
  valid_key k -> own o k a -> non_configurable a -> o_run h1 ops2 = Done h2 ->
  exists o2 b, nth_error h2 x = Some o2 /\ own o2 k b /\ stable a b.
Proof. exact nonconfigurable_stable. Qed.
Print Assumptions C08_non_configurable_stable.

(** C09: no prototype cycle in any reached heap, and every lookup along prototypes ends *)
Theorem C09_acyclic : forall ops h, Forall op_ok ops -> o_run [] ops = Done h ->
  (forall x, ~ reach h x x) /\ (forall op, op_ok op -> refs_ok h op -> o_step h op <> Loops).
Proof. exact prototypes_acyclic. Qed.
Print Assumptions C09_acyclic.

(** C09: a call that would create a cycle fails and changes nothing *)
Theorem C09_cycle_refused : forall ops h x o y, Forall op_ok ops -> o_run [] ops = Done h -> nth_error h x = Some o -> kind o <> Exotic -> (y < length h)%nat ->
  y = x \/ reach h y x -> o_step h (SetProto x (Some y)) = Done (h, RFalse).
Proof. exact cycle_refused. Qed.
Print Assumptions C09_cycle_refused.

(** C09: every other call succeeds on an extensible object *)
Theorem C09_other_accepted : forall ops h x o p, Forall op_ok ops -> o_run [] ops = Done h -> nth_error h x = Some o -> kind o <> Exotic -> ext o = true ->
  (forall y, p = Some y -> (y < length h)%nat /\ y <> x /\ ~ reach h y x) ->
  exists o', o_step h (SetProto x p) = Done (put h x o', RTrue) /\ proto o' = p /\ ext o' = true /\ (forall k, get_own o' k = get_own o k).
Proof. exact no_cycle_accepted. Qed.
Print Assumptions C09_other_accepted.

(** C10: preventExtensions makes the object non-extensible and changes nothing else *)
Theorem C10_prevent_extensions : forall h x o, nth_error h x = Some o -> kind o <> Exotic -> exists o', o_step h (Prevent x) = Done (put h x o', RTrue) /\ ext o' = false /\ proto o' = proto o /\ (forall k, get_own o' k = get_own o k).
Proof. exact prevent_works. Qed.
Print Assumptions C10_prevent_extensions.

(** C10: a non-extensible object gains no property and keeps its prototype *)
Theorem C10_non_extensible_is_final : forall ops1 h1 x o ops2 h2, Forall op_ok (ops1 ++ ops2) -> o_run [] ops1 = Done h1 -> nth_error h1 x = Some o ->
  ext o = false -> o_run h1 ops2 = Done h2 ->
  exists o2, nth_error h2 x = Some o2 /\ ext o2 = false /\ proto o2 = proto o /\ (forall k, valid_key k -> lacks o k -> lacks o2 k) /\
    (forall ks, own_keys o2 = SOk ks -> exists ks1, own_keys o = SOk ks1 /\ incl ks ks1).
Proof. exact non_extensible_final. Qed.
Print Assumptions C10_non_extensible_is_final.

(** C48: own keys come as ascending indices, strings, symbols, each in creation order *)
Theorem C48_own_keys_in_order : forall ops h gs x o g, Forall op_ok ops -> run_orders [] [] ops = Done (h, gs) -> nth_error h x = Some o -> nth_error gs x = Some g ->
  exists ks, own_keys o = SOk ks /\ ordered_keys g ks /\ NoDup ks /\ (forall k, valid_key k -> (In k ks <-> ~ lacks o k)).
Proof. exact keys_in_order. Qed.
Print Assumptions C48_own_keys_in_order.

(** C48: the creation orders exist for every history that completes *)
Theorem C48_orders_total : forall ops h, o_run [] ops = Done h -> exists gs, run_orders [] [] ops = Done (h, gs).
Proof. exact run_orders_total. Qed.
Print Assumptions C48_orders_total.

(** C58: freeze and seal lock exactly the attributes they should, keep keys, order and
    values, and are recognised by isFrozen and isSealed *)
Theorem C58_freeze_seal : forall ops h x o fr, Forall op_ok ops -> o_run [] ops = Done h -> nth_error h x = Some o -> kind o <> Exotic ->
  exists o', set_level fr o = SOk (o', true) /\ ext o' = false /\ proto o' = proto o /\ own_keys o' = own_keys o /\
    (forall k a, valid_key k -> (own o' k a <-> exists b, own o k b /\ a = locked fr b)) /\ test_level fr o' = SOk true.
Proof. exact level_set. Qed.
Print Assumptions C58_freeze_seal.

(** C58: isFrozen / isSealed answer true exactly for such objects *)
Theorem C58_is_frozen_sealed : forall ops h x o fr, Forall op_ok ops -> o_run [] ops = Done h -> nth_error h x = Some o ->
  exists b, test_level fr o = SOk b /\ (b = true <-> ext o = false /\ forall k a, valid_key k -> own o k a -> locked fr a = a).
Proof. exact level_test. Qed.
Print Assumptions C58_is_frozen_sealed.

(** C59: defineProperty on an ordinary object is ECMA-262 10.1.6.3 *)
Theorem C59_define_property_conforms : forall ops h x o k d cv, Forall op_ok ops -> o_run [] ops = Done h -> nth_error h x = Some o -> kind o = Ordinary -> valid_key k -> wf_desc d ->
  forall h' r, o_step h (Define x k d cv) = Done (h', r) ->
  exists o' before (b : bool) after, h' = put h x o' /\ r = (if b then RTrue else RFalse) /\ ecma_define (ext o) d before b after /\
    (match before with Some a => own o k a | None => lacks o k end) /\ (match after with Some a => own o' k a | None => lacks o' k end) /\
    (forall j, valid_key j -> j <> k -> get_own o' j = get_own o j) /\ ext o' = ext o /\ proto o' = proto o /\ kind o' = Ordinary.
Proof. exact define_ecma. Qed.
Print Assumptions C59_define_property_conforms.

(** ** Examples *)
Definition data (v : Z) (w e c : bool) : desc := {| d_val := Some (Num v); d_wr := Some w; d_get := None; d_set := None; d_en := Some e; d_cf := Some c |}.
Definition history : list oop :=
  [NewArray None 3; Define 0 (KIdx 5) (data 1 true true true) None; Define 0 (KIdx 2) (data 2 true true false) None;
   Define 0 (KIdx 100) (data 3 true true true) None; Define 0 (KName (NSym 1)) (data 4 false false true) None; Define 0 (KName (NStr 3)) (data 5 false true false) None;
   NewObject (Some 0%nat)].
Example history_ok : Forall op_ok history.
Proof. unfold history. repeat (apply Forall_cons; [cbn; unfold valid_index, wf_desc; cbn; intuition lia|]). apply Forall_nil. Qed.
Definition the_heap : heap := Eval vm_compute in match o_run [] history with Done h => h | _ => [] end.
Definition the_array : obj := Eval vm_compute in nth 0 the_heap (new_object None).
Example history_runs : o_run [] history = Done the_heap /\ nth_error the_heap 0 = Some the_array /\ kind the_array = Array.
Proof. vm_compute. auto. Qed.

Example C06_witness : own the_array (KName length_key) (AData (Num 101) true false false) /\ ~ lacks the_array (KIdx 100).
Proof. split; [vm_compute; reflexivity | vm_compute; discriminate]. Qed.
(** a.length = 0 stops above the non-configurable element 2 *)
Example C07_witness : exists h' o', o_step the_heap (Define 0 (KName length_key) {| d_val := Some (Num 0); d_wr := None; d_get := None; d_set := None; d_en := None; d_cf := None |} None) = Done (h', RFalse) /\
  nth_error h' 0 = Some o' /\ own o' (KName length_key) (AData (Num 3) true false false) /\ lacks o' (KIdx 5) /\ ~ lacks o' (KIdx 2).
Proof. eexists _, _. split; [vm_compute; reflexivity|]. split; [reflexivity|]. split; [vm_compute; reflexivity|]. split; [vm_compute; reflexivity | vm_compute; discriminate]. Qed.
Example C07_fixed_witness : exists h1 o h2, o_run [] (history ++ [Define 0 (KName length_key) {| d_val := None; d_wr := Some false; d_get := None; d_set := None; d_en := None; d_cf := None |} None]) = Done h1 /\
  nth_error h1 0 = Some o /\ own o (KName length_key) (AData (Num 101) false false false) /\
  o_run h1 [SetProp 0 (KIdx 200) (Num 1) (Some 0%nat) None; Delete 0 (KIdx 100)] = Done h2.
Proof. eexists _, _, _. split; [vm_compute; reflexivity|]. split; [reflexivity|]. split; vm_compute; reflexivity. Qed.
Example C08_witness : own the_array (KIdx 2) (AData (Num 2) true true false) /\ non_configurable (AData (Num 2) true true false) /\
  exists h2 o2, o_run the_heap [Delete 0 (KIdx 2); Define 0 (KIdx 2) (data 9 false true false) None; Define 0 (KIdx 2) (data 8 true true true) None] = Done h2 /\
    nth_error h2 0 = Some o2 /\ own o2 (KIdx 2) (AData (Num 9) false true false).
Proof. split; [vm_compute; reflexivity|]. split; [reflexivity|]. eexists _, _. split; [vm_compute; reflexivity|]. split; vm_compute; reflexivity. Qed.
Example C09_witness : reach the_heap 1 0 /\ o_step the_heap (SetProto 0 (Some 1%nat)) = Done (the_heap, RFalse).
Proof. split; [apply reach_one; eexists; split; vm_compute; reflexivity | vm_compute; reflexivity]. Qed.
Example C09_other_witness : exists h1, o_run [] (history ++ [NewObject None]) = Done h1 /\ exists h2, o_step h1 (SetProto 0 (Some 2%nat)) = Done (h2, RTrue) /\ reach h2 1 2.
Proof.
  eexists. split; [vm_compute; reflexivity|]. eexists. split; [vm_compute; reflexivity|].
  eapply reach_step; [eexists; split; vm_compute; reflexivity|]. apply reach_one. eexists. split; vm_compute; reflexivity.
Qed.
Example C10_witness : exists h1 o h2 o2, o_run [] (history ++ [Prevent 0]) = Done h1 /\ nth_error h1 0 = Some o /\ ext o = false /\
  o_run h1 [SetProp 0 (KName (NStr 9)) (Num 1) (Some 0%nat) None; Delete 0 (KIdx 5); SetProto 0 (Some 1%nat)] = Done h2 /\ nth_error h2 0 = Some o2 /\
  lacks o (KName (NStr 9)) /\ lacks o2 (KName (NStr 9)) /\ lacks o2 (KIdx 5).
Proof. eexists _, _, _, _. split; [vm_compute; reflexivity|]. split; [reflexivity|]. split; [reflexivity|]. split; [vm_compute; reflexivity|]. split; [reflexivity|]. split; [|split]; vm_compute; reflexivity. Qed.
Example C48_witness : exists gs, run_orders [] [] history = Done (the_heap, gs) /\
  nth_error gs 0 = Some [KName length_key; KIdx 5; KIdx 2; KIdx 100; KName (NSym 1); KName (NStr 3)] /\
  own_keys the_array = SOk [KIdx 2; KIdx 5; KIdx 100; KName length_key; KName (NStr 3); KName (NSym 1)].
Proof. eexists. split; [vm_compute; reflexivity|]. split; vm_compute; reflexivity. Qed.
Example C58_witness : exists o', set_level true the_array = SOk (o', true) /\ own o' (KIdx 5) (AData (Num 1) false true false) /\ test_level true the_array = SOk false /\ test_level true o' = SOk true.
Proof. eexists. split; [vm_compute; reflexivity|]. split; [|split]; vm_compute; reflexivity. Qed.
Example C59_witness : exists h' r, o_step the_heap (Define 1 (KIdx 0) (data 1 true true true) None) = Done (h', r) /\ kind (nth 1 the_heap the_array) = Ordinary /\ r = RTrue.
Proof. eexists _, _. split; [vm_compute; reflexivity|]. split; reflexivity. Qed.
