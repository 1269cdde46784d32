(** Proofs about the internal methods of typed arrays. *)
From Coq Require Import List ZArith Bool Lia.
From Verif Require Import MethModel DescModel IntObjModel IntObjSpec.
Import ListNotations.
Local Open Scope Z_scope.

Section S.
Variable w : tworld.
Variable self : val.
Variable len : Z.
Notation range := (in_range w len).

Lemma valid_cases : forall n s,
  (exists i, range s n i /\ valid w len n s = (s, Ok (Some i))) \/
  ((forall i, ~ range s n i) /\ valid w len n s = (s, Ok None)).
Proof.
  intros n s. unfold valid, in_range. destruct (t_detached w s) eqn:D.
  - right. split; [|reflexivity]. intros i [H _]. discriminate.
  - destruct n as [i| |].
    + destruct (Z.ltb_spec i 0) as [L|L]; cbn [orb].
      { right. split; [|reflexivity]. intros j [_ [H R]]. inversion H; subst. lia. }
      destruct (Z.leb_spec len i) as [G|G].
      { right. split; [|reflexivity]. intros j [_ [H R]]. inversion H; subst. lia. }
      left. exists i. split; [|reflexivity]. repeat split; assumption.
    + right. split; [|reflexivity]. intros j [_ [H _]]. discriminate.
    + right. split; [|reflexivity]. intros j [_ [H _]]. discriminate.
Qed.
Lemma range_fun : forall s n i j, range s n i -> range s n j -> i = j.
Proof. intros s n i j [_ [H _]] [_ [K _]]. congruence. Qed.

Ltac clash :=
  match goal with
  | N : forall i, ~ range ?s ?n i, R : range ?s ?n ?i |- _ => destruct (N i R)
  | R : range ?s ?n ?i, Q : range ?s ?n ?j |- _ => pose proof (range_fun s n i j R Q); subst; clear Q; try clash
  end.

Lemma element_get_iff : forall n s s' r, element_get w len n s = (s', r) <-> Get_element w len n s s' r.
Proof.
  intros n s s' r. unfold element_get, bind.
  destruct (valid_cases n s) as [[i [R E]]|[N E]]; rewrite E; unfold ret; split; intros H.
  - inversion H; subst. apply ge_valid. exact R.
  - inversion H; subst; clash; reflexivity.
  - inversion H; subst. apply ge_invalid. exact N.
  - inversion H; subst; try clash; reflexivity.
Qed.
Lemma element_set_iff : forall n v s s' r, element_set w len n v s = (s', r) <-> Set_element w len n v s s' r.
Proof.
  intros n v s s' r. unfold element_set, bind. split; intros H.
  - destruct (t_convert w v s) as [s1 [e|e| |]] eqn:C.
    + destruct (valid_cases n s1) as [[i [R E]]|[N E]]; rewrite E in H; inversion H; subst.
      * eapply se_valid; eassumption.
      * eapply se_invalid; eassumption.
    + inversion H; subst. apply se_throw. exact C.
    + inversion H; subst. apply se_bad. exact C.
    + inversion H; subst. apply se_deep. exact C.
  - inversion H; subst; match goal with C : t_convert w v s = _ |- _ => rewrite C end; try reflexivity.
    + match goal with R : range ?x n ?i |- _ => destruct (valid_cases n x) as [[j [Q E]]|[N E]]; rewrite E; clash end. reflexivity.
    + match goal with N : forall i, ~ range ?x n i |- _ => destruct (valid_cases n x) as [[j [Q E]]|[N' E]]; rewrite E; [clash|] end. reflexivity.
Qed.
Lemma get_own_iff : forall n s s' r, get_own w len (Canon n) s = (s', r) <-> Get_own w len n s s' r.
Proof.
  intros n s s' r. unfold get_own, element_get, bind.
  destruct (valid_cases n s) as [[i [R E]]|[N E]]; rewrite E; unfold ret; cbn [is_undef]; split; intros H.
  - inversion H; subst. apply go_valid. exact R.
  - inversion H; subst; clash; reflexivity.
  - inversion H; subst. apply go_invalid. exact N.
  - inversion H; subst; try clash; reflexivity.
Qed.
Lemma is_false_iff : forall o, is_false o = true <-> o = Some false.
Proof. intros [[|]|]; cbn; split; intros; try discriminate; try reflexivity. Qed.
Definition acceptb (d : desc) : bool :=
  negb (is_false (d_configurable d)) && negb (is_false (d_enumerable d)) &&
  negb (is_some (d_getter d) || is_some (d_setter d)) && negb (is_false (d_writable d)).
Lemma acceptb_iff : forall d, acceptb d = true <-> acceptable d.
Proof.
  intros [v wr g st e c]. unfold acceptb, acceptable. cbn.
  destruct wr as [[|]|], g, st, e as [[|]|], c as [[|]|]; cbn; split; intros H;
    try discriminate; try reflexivity; try (repeat split; discriminate);
    destruct H as [H1 [H2 [H3 [H4 H5]]]]; try discriminate; exfalso; auto.
Qed.
Lemma define_own_eq : forall n d s, define_own w len (Canon n) d s =
  match snd (valid w len n s) with
  | Ok (Some _) => if acceptb d then match d_value d with Some v => bind (element_set w len n v) (fun _ => ret true) s | None => (s, Ok true) end
                   else (s, Ok false)
  | _ => (s, Ok false)
  end.
Proof.
  intros n d s. unfold define_own, acceptb. unfold bind at 1.
  destruct (valid_cases n s) as [[i [R E]]|[N E]]; rewrite E; cbn [snd is_some negb]; [|reflexivity].
  destruct (is_false (d_configurable d)); [reflexivity|]. destruct (is_false (d_enumerable d)); [reflexivity|].
  destruct (is_some (d_getter d) || is_some (d_setter d)); [reflexivity|]. destruct (is_false (d_writable d)); [reflexivity|].
  cbn [negb andb]. destruct (d_value d); reflexivity.
Qed.
Lemma define_own_iff : forall n d s s' r, define_own w len (Canon n) d s = (s', r) <-> Define_own w len n d s s' r.
Proof.
  intros n d s s' r. rewrite define_own_eq.
  destruct (valid_cases n s) as [[i [R E]]|[N E]]; rewrite E; cbn [snd].
  2:{ split; intros H; [inversion H; subst; apply do_invalid; exact N|inversion H; subst; try clash; reflexivity]. }
  destruct (acceptb d) eqn:A.
  2:{ assert (A' : ~ acceptable d) by (rewrite <- acceptb_iff, A; discriminate).
      split; intros H; [inversion H; subst; eapply do_refused; eassumption|].
      inversion H; subst; try contradiction; try clash; reflexivity. }
  apply acceptb_iff in A. destruct (d_value d) as [v|] eqn:V.
  2:{ split; intros H; [inversion H; subst; eapply do_empty; eassumption|].
      inversion H; subst; try contradiction; try clash; try reflexivity; congruence. }
  unfold bind, ret. split; intros H.
  - destruct (element_set w len n v s) as [s1 [u|e| |]] eqn:X; apply element_set_iff in X; inversion H; subst.
    + destruct u. eapply do_set; eassumption.
    + eapply do_throw; eassumption.
    + eapply do_bad; eassumption.
    + eapply do_deep; eassumption.
  - inversion H; subst; try contradiction; try (exfalso; clash; fail); try congruence;
      match goal with K : d_value d = Some ?x |- _ => rewrite V in K; inversion K; subst end;
      match goal with X : Set_element _ _ _ _ _ _ _ |- _ => apply element_set_iff in X; rewrite X end; reflexivity.
Qed.
Lemma set_self_iff : forall n v s s' r,
  set_property w len (Canon n) v self s = (s', r) <-> Set_property w self len n v self s s' r.
Proof.
  intros n v s s' r. unfold set_property, bind, ret. split; intros H.
  - destruct (element_set w len n v s) as [s1 [u|e| |]] eqn:X; apply element_set_iff in X; inversion H; subst.
    + destruct u. apply sp_self. exact X.
    + apply sp_throw. exact X.
    + apply sp_bad. exact X.
    + apply sp_deep. exact X.
  - inversion H; subst; try contradiction;
      match goal with X : Set_element _ _ _ _ _ _ _ |- _ => apply element_set_iff in X; rewrite X end; reflexivity.
Qed.
Lemma count_len : forall n i, length (count n i) = n.
Proof. induction n as [|n IH]; intros i; [reflexivity|]. cbn. rewrite IH. reflexivity. Qed.
Lemma count_nth : forall n i k, (k < n)%nat -> nth_error (count n i) k = Some (Canon (Int (i + Z.of_nat k))).
Proof.
  induction n as [|n IH]; intros i k H; [lia|]. destruct k as [|k]; cbn [count nth_error].
  - rewrite Z.add_0_r. reflexivity.
  - rewrite IH by lia. do 3 f_equal. lia.
Qed.
Lemma keys_spec : forall s others, t_keys w s = (s, Ok others) -> t_detached w s = false ->
  exists l, own_property_keys w len s = (s, Ok l) /\ s_keys w len s others l.
Proof.
  intros s others K D. exists (count (Z.to_nat len) 0 ++ map Plain others).
  split; [unfold own_property_keys, bind; rewrite K; reflexivity|]. split; [congruence|]. intros _.
  exists (count (Z.to_nat len) 0). split; [reflexivity|]. split; [apply count_len|]. intros i R.
  rewrite count_nth by lia. rewrite Z2Nat.id by lia. reflexivity.
Qed.
End S.
