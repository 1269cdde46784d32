(** Private names: resolution, access and initialisation. *)
From Coq Require Import List ZArith Bool Lia.
From Verif Require Import PrivModel PrivSpec.
Import ListNotations.
Local Open Scope Z_scope.

Lemma put_eq {A} (f : Z -> A) n a : put f n a n = a.
Proof. unfold put. rewrite Z.eqb_refl. reflexivity. Qed.
Lemma put_ne {A} (f : Z -> A) n a m : m <> n -> put f n a m = f m.
Proof. unfold put. intro H. apply Z.eqb_neq in H. rewrite H. reflexivity. Qed.

(** *** Names *)
Definition good (fr : frame) (lo next : Z) : Prop :=
  lo <= next /\ (forall id n, find id fr = Some n -> lo <= n < next) /\
  (forall i j n, find i fr = Some n -> find j fr = Some n -> i = j).
Lemma names_add_ok ids fr lo next fr' next' : good fr lo next -> names_add fr next ids = (fr', next') ->
  good fr' lo next' /\
  (forall id, find id fr' <> None <-> find id fr <> None \/ In id ids).
Proof.
  revert fr next; induction ids as [|id ids IH]; intros fr next G E; cbn [names_add] in E.
  - inversion E; subst. split; [exact G|]. intro id. cbn [In]. tauto.
  - unfold name_add in E. destruct (find id fr) as [n|] eqn:F.
    + destruct (IH _ _ G E) as [G' D]. split; [exact G'|]. intro j. rewrite D. cbn [In].
      split; [tauto|]. intros [K|[<-|K]]; [tauto| |tauto]. left. congruence.
    + destruct (IH ((id, next) :: fr) (next + 1)) as [G' D].
      { destruct G as (L & R & U). split; [lia|]. split.
        - intros j n. cbn [find]. destruct (id =? j); [intro Q; inversion Q; subst; lia|]. intro Q. apply R in Q. lia.
        - intros i j n. cbn [find]. destruct (Z.eqb_spec id i) as [Ei|Ni], (Z.eqb_spec id j) as [Ej|Nj]; intros A B.
          + congruence.
          + inversion A; subst. apply R in B. lia.
          + inversion B; subst. apply R in A. lia.
          + exact (U _ _ _ A B). }
      { exact E. }
      split; [exact G'|]. intro j. rewrite D. cbn [find In]. destruct (Z.eqb_spec id j) as [->|N].
      * split; [tauto|]. intros _. left. discriminate.
      * split; [tauto|]. intros [K|[K|K]]; [tauto|congruence|tauto].
Qed.
Theorem push_names env next ids env' next' : env_push env next ids = (env', next') ->
  next <= next' /\
  (forall id, In id ids -> exists n, lookup id env' = Some n /\ next <= n < next') /\
  (forall i j n, In i ids -> In j ids -> lookup i env' = Some n -> lookup j env' = Some n -> i = j) /\
  (forall id, ~ In id ids -> lookup id env' = lookup id env).
Proof.
  unfold env_push. destruct (names_add [] next ids) as [fr nx] eqn:E. intro Q; inversion Q; subst.
  destruct (names_add_ok ids [] next next fr next') as [(L & R & U) D]; [|exact E|].
  { split; [lia|]. split; intros; discriminate. }
  assert (Has : forall id, In id ids -> exists n, find id fr = Some n).
  { intros id Hin. destruct (find id fr) as [n|] eqn:F; [exists n; reflexivity|].
    destruct (proj2 (D id) (or_intror Hin) F). }
  split; [exact L|]. split; [|split].
  - intros id Hin. destruct (Has id Hin) as [n F]. exists n. cbn [lookup]. rewrite F. split; [reflexivity|]. exact (R id n F).
  - intros i j n Hi Hj. cbn [lookup]. destruct (Has i Hi) as [a Fa], (Has j Hj) as [b Fb]. rewrite Fa, Fb.
    intros A B. inversion A; inversion B; subst. exact (U i j n Fa Fb).
  - intros id Hn. cbn [lookup]. destruct (find id fr) eqn:F; [|reflexivity].
    destruct (proj1 (D id)) as [K|K]; [congruence| |]; [cbn [find] in K; congruence|destruct (Hn K)].
Qed.

(** *** Access *)
Theorem get_iff env o id n r : lookup id env = Some n -> (private_get env o id = r <-> Gets (o n) r).
Proof.
  unfold private_get. intros ->. split.
  - intros <-. destruct (o n) as [[v|f|[g|] s]|]; constructor.
  - intro G. inversion G; reflexivity.
Qed.
Theorem set_ok env o id n v : lookup id env = Some n ->
  exists o' r, private_set env o id v = (o', r) /\ Sets v (o n) r (o' n) /\ forall m, m <> n -> o' m = o m.
Proof.
  unfold private_set. intros ->. destruct (o n) as [[w|f|g [s|]]|] eqn:E.
  - exists (put o n (Some (Field v))), Done. split; [reflexivity|]. rewrite put_eq. split; [constructor|].
    intros m H. apply put_ne; exact H.
  - exists o, TypeError. rewrite E. split; [reflexivity|]. split; [constructor|auto].
  - exists o, (Calls s [v]). rewrite E. split; [reflexivity|]. split; [constructor|auto].
  - exists o, TypeError. rewrite E. split; [reflexivity|]. split; [constructor|auto].
  - exists o, TypeError. rewrite E. split; [reflexivity|]. split; [constructor|auto].
Qed.

(** *** Initialisation *)
Fixpoint slot (l : list item) (e : option elem) : option (option elem) :=
  match l with [] => Some e | i :: l => match item_add e i with None => None | Some e => slot l (Some e) end end.
Lemma initialize_slots ms : forall o r, (forall n, slot (items n ms) (o n) = Some (r n)) ->
  exists o', initialize ms o = (o', Done) /\ forall n, o' n = r n.
Proof.
  induction ms as [|[n0 i] ms IH]; intros o r H.
  - exists o. split; [reflexivity|]. intro n. specialize (H n). cbn in H. congruence.
  - cbn [initialize]. pose proof (H n0) as H0. unfold items in H0. cbn [filter fst] in H0. rewrite Z.eqb_refl in H0.
    cbn [map snd slot] in H0. destruct (item_add (o n0) i) as [e|]; [|discriminate].
    apply IH. intro n. destruct (Z.eq_dec n n0) as [->|N].
    + rewrite put_eq. exact H0.
    + rewrite put_ne by exact N. specialize (H n). unfold items in H. cbn [filter fst] in H.
      destruct (Z.eqb_spec n0 n) as [Q|_]; [congruence|]. exact H.
Qed.
Lemma slot_element l e : Element l e -> slot l None = Some (Some e).
Proof. intro E; inversion E; reflexivity. Qed.
Theorem initialize_fresh ms o : class_body ms -> (forall n, items n ms <> [] -> o n = None) ->
  exists o', initialize ms o = (o', Done) /\ initialized ms o o'.
Proof.
  intros C N.
  destruct (initialize_slots ms o (fun n => match slot (items n ms) (o n) with Some e => e | None => None end)) as (o' & E & R).
  { intro n. destruct (C n) as [Q|[e Q]].
    - rewrite Q. reflexivity.
    - rewrite N by (intro K; rewrite K in Q; inversion Q). rewrite (slot_element _ _ Q). reflexivity. }
  exists o'. split; [exact E|]. intro n. rewrite R. split.
  - intros ->. reflexivity.
  - intros e Q. rewrite N by (intro K; rewrite K in Q; inversion Q). rewrite (slot_element _ _ Q). reflexivity.
Qed.
Theorem initialize_twice ms o o' : class_body ms -> ms <> [] -> initialized ms o o' ->
  initialize ms o' = (o', TypeError).
Proof.
  intros C NE I. destruct ms as [|[n i] ms]; [congruence|]. cbn [initialize].
  assert (Q : items n ((n, i) :: ms) = i :: items n ms) by (unfold items; cbn [filter fst]; rewrite Z.eqb_refl; reflexivity).
  destruct (C n) as [K|[e K]]; [rewrite Q in K; discriminate|].
  rewrite (proj2 (I n) e K). rewrite Q in K. inversion K; reflexivity.
Qed.
Theorem field_once o n v :
  (o n = None -> exists o', define_field o n v = (o', Done) /\ o' n = Some (Field v) /\ forall m, m <> n -> o' m = o m) /\
  (o n <> None -> define_field o n v = (o, TypeError)).
Proof.
  unfold define_field, field_add. split.
  - intros ->. eexists. split; [reflexivity|]. split; [apply put_eq|]. intros m H; apply put_ne; exact H.
  - destruct (o n); [reflexivity|congruence].
Qed.
(** an object that has only elements of names below [next] shows none of them to a
    class evaluated later *)
Theorem brand env next ids env' next' o id : env_push env next ids = (env', next') ->
  (forall n, next <= n -> o n = None) -> In id ids ->
  private_get env' o id = TypeError /\ private_in env' o id = Some false /\
  forall v, private_set env' o id v = (o, TypeError).
Proof.
  intros P N Hin. destruct (push_names _ _ _ _ _ P) as (_ & H & _). destruct (H id Hin) as (n & L & R).
  unfold private_get, private_in, private_set. rewrite L, N by lia. auto.
Qed.
