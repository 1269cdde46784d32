(** Property theorem C04: property keys. *)
From Coq Require Import List ZArith Bool Lia.
Import ListNotations.
From Verif Require Import StrModel StrSpec StrProofs KeyModel KeySpec KeyProofs.
Local Open Scope Z_scope.

(** Exactly when two names get the same key, in any run of the engine: the
    texts are equal or both are spellings of the same index, with blanks around
    and leading zeros accepted. *)
Theorem C04_same_key_iff_actual : forall ops k1 c1 k2 c2,
  In (k1, c1) (snd (run ops)) -> In (k2, c2) (snd (run ops)) ->
  (k1 = k2 <-> c1 = c2 \/
   exists n, loose_index (fun c => es_space c \/ c = 0x85) c1 n /\
             loose_index (fun c => es_space c \/ c = 0x85) c2 n).
Proof.
  intros ops k1 c1 k2 c2 I1 I2. rewrite (keys_equal ops k1 c1 k2 c2 I1 I2).
  assert (L : forall c n, loose_index (fun c => is_white_space c = true) c n <->
                          loose_index (fun c => es_space c \/ c = 0x85) c n).
  { intros c n. unfold loose_index. split; intros (pre & ds & post & E & F1 & F2 & R); exists pre, ds, post;
      (split; [exact E|]); (split; [|split; [|exact R]]);
      (eapply Forall_impl; [|eassumption]); intros a; apply white_space_spec. }
  setoid_rewrite L. reflexivity.
Qed.
Print Assumptions C04_same_key_iff_actual.

(** For names that are not untidy spellings of an index: same key exactly for
    equal texts. *)
Theorem C04_same_key_guarded : forall ops k1 c1 k2 c2,
  In (k1, c1) (snd (run ops)) -> In (k2, c2) (snd (run ops)) -> tidy c1 -> tidy c2 ->
  (k1 = k2 <-> c1 = c2).
Proof. exact keys_equal_tidy. Qed.
Print Assumptions C04_same_key_guarded.

(** Every name that is asked for gets a key. *)
Theorem C04_every_name_resolves : forall st v t, text st v = Some t ->
  exists k st', resolve st v = Some (k, st').
Proof. exact resolve_total. Qed.
Print Assumptions C04_every_name_resolves.

(** The index key of a canonical index name is that index, and the index prints
    back as the same name. *)
Theorem C04_index_key : forall ops k c n, In (k, c) (snd (run ops)) -> index_name c n ->
  k = KIndex n /\ decimal n = c.
Proof.
  intros ops k c n I H. split.
  - apply (index_key ops k c n I), canonical_loose, H.
  - apply (index_name_unique _ _ n); [|exact H]. apply decimal_name. destruct H as (R & _). lia.
Qed.
Print Assumptions C04_index_key.

(** Conversely an index key prints back as the name when that is tidy. *)
Theorem C04_index_key_prints_back_guarded : forall ops n c, In (KIndex n, c) (snd (run ops)) -> tidy c ->
  index_name c n /\ decimal n = c.
Proof.
  intros ops n c I T. assert (L : index_name c n) by (apply T; apply (index_key ops (KIndex n) c n I); reflexivity).
  split; [exact L|]. exact (proj2 (C04_index_key ops _ c n I L)).
Qed.
Print Assumptions C04_index_key_prints_back_guarded.

(** "01" and " 1" name the same property as "1". *)
Theorem C04_same_key_refuted : exists ops k1 c1 k2 c2,
  In (k1, c1) (snd (run ops)) /\ In (k2, c2) (snd (run ops)) /\ k1 = k2 /\ c1 <> c2.
Proof.
  exists [ONew [48; 49]; ONew [49]; OResolve (VStr 0); OResolve (VStr 1)], (KIndex 1), [48; 49], (KIndex 1), [49].
  vm_compute. repeat split; auto. discriminate.
Qed.
Print Assumptions C04_same_key_refuted.

(** A concrete run: two copies of "ab" share a key, "ac" has another, the
    number 7 and the string "7" share the index key, 4294967295 is no index. *)
Example C04_witness :
  let out := snd (run [ONew [97; 98]; ONew [97; 98]; ONew [97; 99]; ONew [55];
                       OResolve (VStr 0); OResolve (VStr 1); OFree 1; OResolve (VStr 2); OResolve (VStr 3);
                       OResolve (VIdx 7); ONew [52; 50; 57; 52; 57; 54; 55; 50; 57; 53]; OResolve (VStr 4)]) in
  out = [(KStr 4, [52; 50; 57; 52; 57; 54; 55; 50; 57; 53]); (KIndex 7, [55]); (KIndex 7, [55]);
         (KStr 2, [97; 99]); (KStr 0, [97; 98]); (KStr 0, [97; 98])] /\
  index_name [55] 7.
Proof.
  split; [vm_compute; reflexivity|]. unfold index_name. repeat split; try (cbn; lia); try discriminate.
  constructor; [unfold digit; lia|constructor].
Qed.

Example C04_tidy_witness : tidy [97; 98].
Proof.
  intros n H. apply parse_index_spec in H. vm_compute in H. discriminate.
Qed.
