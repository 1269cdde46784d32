(** Properties C136 and C137: private names of classes. *)
From Coq Require Import List ZArith Bool Lia.
From Verif Require Import PrivModel PrivSpec PrivProofs.
Import ListNotations.
Local Open Scope Z_scope.

(** *** C136: private names are resolved by scope and are new for each class *)
Theorem C136_names : forall env next ids env' next', env_push env next ids = (env', next') ->
  next <= next' /\
  (forall id, In id ids -> exists n, lookup id env' = Some n /\ next <= n < next') /\
  (forall i j n, In i ids -> In j ids -> lookup i env' = Some n -> lookup j env' = Some n -> i = j) /\
  (forall id, ~ In id ids -> lookup id env' = lookup id env).
Proof. exact push_names. Qed.
Print Assumptions C136_names.
(** elements of other classes cannot be reached, whatever their identifiers are *)
Theorem C136_brand : forall env next ids env' next' o id, env_push env next ids = (env', next') ->
  (forall n, next <= n -> o n = None) -> In id ids ->
  private_get env' o id = TypeError /\ private_in env' o id = Some false /\
  forall v, private_set env' o id v = (o, TypeError).
Proof. exact brand. Qed.
Print Assumptions C136_brand.
Example C136_witness :
  let '(e1, n1) := env_push [] 100 [7; 8; 7] in
  let '(e2, n2) := env_push e1 n1 [8; 9] in
  map (fun id => lookup id e1) [7; 8; 9] = [Some 100; Some 101; None] /\
  map (fun id => lookup id e2) [7; 8; 9] = [Some 100; Some 102; Some 103].
Proof. split; reflexivity. Qed.
Example C136_witness_brand :
  let o := put (fun _ => None) 101 (Some (Field 5)) in
  let '(e1, n1) := env_push [] 100 [7; 8] in
  let '(e2, n2) := env_push e1 n1 [8] in
  private_get e1 o 8 = Value 5 /\ private_get e2 o 8 = TypeError /\ (forall n, n1 <= n -> o n = None).
Proof.
  cbn. split; [reflexivity|]. split; [reflexivity|]. intros n H.
  apply (put_ne (fun _ => @None elem)). lia.
Qed.

(** *** C137: private elements are read, written and added as 7.3.26 to 7.3.31 say *)
Theorem C137_get : forall env o id n r, lookup id env = Some n -> (private_get env o id = r <-> Gets (o n) r).
Proof. exact get_iff. Qed.
Print Assumptions C137_get.
Theorem C137_set : forall env o id n v, lookup id env = Some n ->
  exists o' r, private_set env o id v = (o', r) /\ Sets v (o n) r (o' n) /\ forall m, m <> n -> o' m = o m.
Proof. exact set_ok. Qed.
Print Assumptions C137_set.
(** #x in o, for elements of all kinds *)
Theorem C137_in : forall env o id n, lookup id env = Some n ->
  exists b, private_in env o id = Some b /\ (b = true <-> o n <> None).
Proof.
  intros env o id n L. unfold private_in. rewrite L. destruct (o n) as [e|].
  - exists true. split; [reflexivity|]. split; [discriminate|reflexivity].
  - exists false. split; [reflexivity|]. split; [discriminate|congruence].
Qed.
Print Assumptions C137_in.
(** getters and setters that are added one after the other are one accessor *)
Theorem C137_initialize : forall ms o, class_body ms -> (forall n, items n ms <> [] -> o n = None) ->
  exists o', initialize ms o = (o', Done) /\ initialized ms o o'.
Proof. exact initialize_fresh. Qed.
Print Assumptions C137_initialize.
(** an object cannot get the private methods of a class twice *)
Theorem C137_twice : forall ms o o', class_body ms -> ms <> [] -> initialized ms o o' ->
  initialize ms o' = (o', TypeError).
Proof. exact initialize_twice. Qed.
Print Assumptions C137_twice.
Theorem C137_field : forall o n v,
  (o n = None -> exists o', define_field o n v = (o', Done) /\ o' n = Some (Field v) /\ forall m, m <> n -> o' m = o m) /\
  (o n <> None -> define_field o n v = (o, TypeError)).
Proof. exact field_once. Qed.
Print Assumptions C137_field.
(** an element that is there only gets the missing half of an accessor *)
Theorem C137_occupied : forall e i e', item_add (Some e) i = Some e' ->
  exists g s, e = Accessor g s /\
    ((exists f, i = IGet f /\ g = None /\ e' = Accessor (Some f) s) \/
     (exists f, i = ISet f /\ s = None /\ e' = Accessor g (Some f))).
Proof.
  intros e i e' H. destruct e as [v|f|g s], i as [f'|f'|f']; try discriminate; exists g, s; (split; [reflexivity|]).
  - left. exists f'. destruct g; [discriminate|]. destruct s; inversion H; auto.
  - right. exists f'. destruct s; [destruct g; discriminate|]. destruct g; inversion H; auto.
Qed.
Print Assumptions C137_occupied.
Definition body0 : list (Z * item) := [(1, ISet 11); (2, IMethod 20); (1, IGet 10); (3, IGet 30)].
Example C137_witness :
  class_body body0 /\
  (let '(o, r) := initialize body0 (fun _ => None) in
   r = Done /\ o 1 = Some (Accessor (Some 10) (Some 11)) /\ o 2 = Some (Method 20) /\
   snd (initialize body0 o) = TypeError /\
   private_get [[(5, 1); (6, 3)]] o 5 = Calls 10 [] /\ snd (private_set [[(5, 1); (6, 3)]] o 6 9) = TypeError).
Proof.
  split; [|cbn; repeat split; reflexivity].
  intro n. unfold items, body0. cbn [filter fst].
  destruct (Z.eqb_spec 1 n) as [<-|H1]; [right; eexists; apply E_set_get|].
  destruct (Z.eqb_spec 2 n) as [<-|H2]; [right; eexists; apply E_method|].
  destruct (Z.eqb_spec 3 n) as [<-|H3]; [right; eexists; apply E_get|].
  left. reflexivity.
Qed.
