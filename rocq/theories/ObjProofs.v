From Coq Require Import ZArith List Bool Lia Sorting.Sorted.
Import ListNotations.
From Verif Require Import StrModel StoreModel StoreSpec StoreProofs ObjModel ObjSpec.
Local Open Scope Z_scope.

(** ** keys *)
Lemma nkey_eqb_spec : forall a b, reflect (a = b) (nkey_eqb a b).
Proof.
  intros [x|x] [y|y]; cbn; try (constructor; discriminate); destruct (Z.eqb_spec x y); constructor; congruence.
Qed.
Lemma key_eqb_spec : forall a b, reflect (a = b) (key_eqb a b).
Proof.
  intros [x|x] [y|y]; cbn; try (constructor; discriminate); [destruct (Z.eqb_spec x y) | destruct (nkey_eqb_spec x y)]; constructor; congruence.
Qed.
Lemma val_eqb_spec : forall a b, reflect (a = b) (val_eqb a b).
Proof.
  intros [|x|x] [|y|y]; cbn; try (constructor; congruence); destruct (Z.eqb_spec x y); constructor; congruence.
Qed.
Lemma nkey_refl : forall a, nkey_eqb a a = true.
Proof. intro a. destruct (nkey_eqb_spec a a); congruence. Qed.
Lemma key_refl : forall a, key_eqb a a = true.
Proof. intro a. destruct (key_eqb_spec a a); congruence. Qed.

(** ** named properties *)
Lemma n_find_app : forall l k p j, n_find (l ++ [(k, p)]) j = match n_find l j with Some q => Some q | None => if nkey_eqb k j then Some p else None end.
Proof. induction l as [|[m q] l IH]; intros k p j; [reflexivity|]. cbn. destruct (nkey_eqb m j); [reflexivity | apply IH]. Qed.
Lemma n_update_find : forall l k p j, n_find l k <> None -> n_find (n_update l k p) j = if nkey_eqb j k then Some p else n_find l j.
Proof.
  induction l as [|[m q] l IH]; intros k p j H; [contradiction|]. cbn in H |- *. destruct (nkey_eqb_spec m k) as [-> | N]; cbn [n_find].
  - destruct (nkey_eqb_spec k j) as [-> | N1]; [rewrite nkey_refl; reflexivity|]. destruct (nkey_eqb_spec j k); [congruence | reflexivity].
  - destruct (nkey_eqb_spec m j) as [-> | N1]; [destruct (nkey_eqb_spec j k); [congruence | reflexivity] | apply IH; exact H].
Qed.
Lemma n_update_keys : forall l k p, map fst (n_update l k p) = map fst l.
Proof. induction l as [|[m q] l IH]; intros k p; [reflexivity|]. cbn. destruct (nkey_eqb m k); cbn; [reflexivity | rewrite IH; reflexivity]. Qed.
Lemma n_find_in : forall l k, n_find l k <> None <-> In k (map fst l).
Proof.
  induction l as [|[m q] l IH]; intros k; [cbn; tauto|]. cbn. destruct (nkey_eqb_spec m k) as [-> | N]; [split; [auto | discriminate]|].
  rewrite IH. split; [auto | intros [H | H]; [congruence | exact H]].
Qed.
Lemma n_remove_keys : forall l k, NoDup (map fst l) -> map fst (n_remove l k) = filter (fun m => negb (nkey_eqb m k)) (map fst l).
Proof.
  induction l as [|[m q] l IH]; intros k N; [reflexivity|]. cbn in N |- *. inversion N as [|? ? N1 N2]; subst. destruct (nkey_eqb_spec m k) as [-> | NE]; cbn.
  - clear - N1. induction (map fst l) as [|a r IH]; [reflexivity|]. cbn in N1 |- *. destruct (nkey_eqb_spec a k) as [-> | NE]; [tauto|]. cbn. rewrite <- IH by tauto. reflexivity.
  - rewrite IH by exact N2. reflexivity.
Qed.
Lemma n_remove_find : forall l k j, NoDup (map fst l) -> n_find (n_remove l k) j = if nkey_eqb j k then None else n_find l j.
Proof.
  induction l as [|[m q] l IH]; intros k j N; [cbn; destruct (nkey_eqb j k); reflexivity|]. cbn in N |- *. inversion N as [|? ? N1 N2]; subst.
  destruct (nkey_eqb_spec m k) as [-> | NE]; cbn [n_find].
  - destruct (nkey_eqb_spec j k) as [-> | NE].
    + destruct (n_find l k) eqn:F; [|reflexivity]. exfalso. apply N1. apply n_find_in. congruence.
    + destruct (nkey_eqb_spec k j); [congruence | reflexivity].
  - rewrite IH by exact N2. destruct (nkey_eqb_spec m j) as [-> | N3]; [destruct (nkey_eqb_spec j k); [congruence | reflexivity] | reflexivity].
Qed.

(** ** one object *)
Definition look (o : obj) (k : key) : option prop :=
  match k with KIdx i => t_find (lst (its (arr o))) i | KName n => n_find (named o) n end.
Definition wfp (p : prop) : Prop := acc p = true -> wr p = false.
Record base (o : obj) : Prop := {
  b_arr : Inv (arr o);
  b_names : NoDup (map fst (named o));
  b_props : forall k p, look o k = Some p -> wfp p
}.
(** the state in which adding an index crashes *)
Definition crash (o : obj) (k : key) : Prop := exists i, k = KIdx i /\ i < 3 /\ its (arr o) = Tree [].
Lemma crash_dec : forall o k, crash o k \/ ~ crash o k.
Proof.
  intros o k. unfold crash. destruct k as [i|n]; [|right; intros (i & H & _); discriminate].
  destruct (its (arr o)) as [v|[|e t]] eqn:E; [right; intros (j & _ & _ & H); discriminate| |right; intros (j & _ & _ & H); discriminate].
  destruct (Z_lt_dec i 3) as [L | L]; [left; exists i; auto | right; intros (j & H & L' & _); injection H as ->; contradiction].
Qed.

Lemma o_lookup_spec : forall o k, base o -> valid_key k -> o_lookup o k = SOk (look o k).
Proof. intros o [i|n] B V; [apply lookup_spec; [apply B | exact V] | reflexivity]. Qed.

Definition names_after (o : obj) (k : key) (r : option prop) : list nkey :=
  match k with
  | KIdx _ => map fst (named o)
  | KName n => match r with
               | Some _ => if is_some (n_find (named o) n) then map fst (named o) else map fst (named o) ++ [n]
               | None => filter (fun m => negb (nkey_eqb m n)) (map fst (named o))
               end
  end.
Record upd (o o' : obj) (k : key) (r : option prop) : Prop := {
  u_kind : kind o' = kind o;
  u_proto : proto o' = proto o;
  u_ext : ext o' = ext o;
  u_base : base o';
  u_look : forall j, look o' j = if key_eqb j k then r else look o j;
  u_names : map fst (named o') = names_after o k r
}.

Lemma upd_same : forall o k, base o -> upd o o k (look o k).
Proof.
  intros o k B. constructor; try reflexivity; [exact B | |].
  - intro j. destruct (key_eqb_spec j k) as [-> | N]; reflexivity.
  - destruct k as [i|n]; [reflexivity|]. cbn. destruct (n_find (named o) n) eqn:F; [reflexivity|].
    assert (H : ~ In n (map fst (named o))) by (intro H; apply n_find_in in H; contradiction).
    clear - H. induction (map fst (named o)) as [|a l IH]; [reflexivity|]. cbn in *. destruct (nkey_eqb_spec a n) as [-> | N]; [tauto|]. cbn. rewrite <- IH by tauto. reflexivity.
Qed.

Lemma o_add_spec : forall o k p, base o -> valid_key k -> look o k = None -> wfp p -> ~ crash o k ->
  exists o', o_add o k p = SOk o' /\ upd o o' k (Some p).
Proof.
  intros o k p B V L W NC. destruct B as [A N P]. destruct k as [i|n]; cbn [look o_add] in *.
  - destruct (add_spec (arr o) i p A V L) as (s & E & I & LS).
    { intros [H1 H2]. apply NC. exists i. auto. }
    rewrite E. cbn [sbind]. eexists. split; [reflexivity|].
    assert (LK : forall j, look (with_arr o s) j = if key_eqb j (KIdx i) then Some p else look o j).
    { intros [j|m]; cbn [look with_arr arr key_eqb]; [|reflexivity]. rewrite LS. apply insert_find. exact L. }
    constructor; try reflexivity; [|exact LK]. constructor; [exact I | exact N|].
    intros j q. rewrite LK. destruct (key_eqb j (KIdx i)); [intro H; injection H as <-; exact W | apply P].
  - eexists. split; [reflexivity|].
    assert (LK : forall j, look (with_named o (named o ++ [(n, p)])) j = if key_eqb j (KName n) then Some p else look o j).
    { intros [j|m]; cbn [look with_named named arr key_eqb]; [reflexivity|]. rewrite n_find_app.
      destruct (nkey_eqb_spec m n) as [-> | NE]; [rewrite L, nkey_refl; reflexivity|].
      destruct (n_find (named o) m); [reflexivity|]. destruct (nkey_eqb_spec n m); [congruence | reflexivity]. }
    constructor; try reflexivity; [|exact LK|].
    + constructor; [exact A | |].
      * cbn [with_named named]. rewrite map_app. cbn. apply NoDup_app_remove_l || idtac.
        assert (H : ~ In n (map fst (named o))) by (intro H; apply n_find_in in H; contradiction).
        clear - N H. induction N as [|a l N1 N2 IH]; cbn; [constructor; [tauto | constructor]|]. constructor.
        -- intro HI. apply in_app_or in HI. destruct HI as [HI | [<- | []]]; [tauto | apply H; left; reflexivity].
        -- apply IH. intro HI. apply H. right. exact HI.
      * intros j q. rewrite LK. destruct (key_eqb j (KName n)); [intro H; injection H as <-; exact W | apply P].
    + cbn [with_named named names_after]. rewrite L. cbn [is_some]. rewrite map_app. reflexivity.
Qed.
Lemma o_add_crash : forall o k p, base o -> valid_key k -> crash o k -> o_add o k p = SUB.
Proof.
  intros o k p [A N P] V (i & -> & L & E). cbn [o_add]. rewrite add_crash; [reflexivity | exact A | exact E | unfold valid_key, valid_index in V; lia].
Qed.
Lemma o_update_spec : forall o k p, base o -> valid_key k -> look o k <> None -> wfp p ->
  exists o', o_update o k p = SOk o' /\ upd o o' k (Some p).
Proof.
  intros o k p B V L W. destruct B as [A N P]. destruct k as [i|n]; cbn [look o_update] in *.
  - destruct (update_spec (arr o) i p A V L) as (s & E & I & LS). rewrite E. cbn [sbind]. eexists. split; [reflexivity|].
    assert (LK : forall j, look (with_arr o s) j = if key_eqb j (KIdx i) then Some p else look o j).
    { intros [j|m]; cbn [look with_arr arr key_eqb]; [|reflexivity]. rewrite LS. apply update_find. exact L. }
    constructor; try reflexivity; [|exact LK]. constructor; [exact I | exact N|].
    intros j q. rewrite LK. destruct (key_eqb j (KIdx i)); [intro H; injection H as <-; exact W | apply P].
  - eexists. split; [reflexivity|].
    assert (LK : forall j, look (with_named o (n_update (named o) n p)) j = if key_eqb j (KName n) then Some p else look o j).
    { intros [j|m]; cbn [look with_named named arr key_eqb]; [reflexivity|]. apply n_update_find. exact L. }
    constructor; try reflexivity; [|exact LK|].
    + constructor; [exact A | cbn [with_named named]; rewrite n_update_keys; exact N|].
      intros j q. rewrite LK. destruct (key_eqb j (KName n)); [intro H; injection H as <-; exact W | apply P].
    + cbn [with_named named names_after]. rewrite n_update_keys. destruct (n_find (named o) n); [reflexivity | congruence].
Qed.
Lemma o_remove_spec : forall o k, base o -> valid_key k -> look o k <> None ->
  exists o', o_remove o k = SOk o' /\ upd o o' k None.
Proof.
  intros o k B V L. destruct B as [A N P]. destruct k as [i|n]; cbn [look o_remove] in *.
  - destruct (delete_spec (arr o) i A V L) as (s & E & I & LS). rewrite E. cbn [sbind]. eexists. split; [reflexivity|].
    assert (LK : forall j, look (with_arr o s) j = if key_eqb j (KIdx i) then None else look o j).
    { intros [j|m]; cbn [look with_arr arr key_eqb]; [|reflexivity]. rewrite LS. apply remove_find. apply (inv_sorted _ A). }
    constructor; try reflexivity; [|exact LK]. constructor; [exact I | exact N|].
    intros j q. rewrite LK. destruct (key_eqb j (KIdx i)); [discriminate | apply P].
  - eexists. split; [reflexivity|].
    assert (LK : forall j, look (with_named o (n_remove (named o) n)) j = if key_eqb j (KName n) then None else look o j).
    { intros [j|m]; cbn [look with_named named arr key_eqb]; [reflexivity|]. apply n_remove_find. exact N. }
    constructor; try reflexivity; [|exact LK|].
    + constructor; [exact A | |].
      * cbn [with_named named]. rewrite n_remove_keys by exact N. apply NoDup_filter. exact N.
      * intros j q. rewrite LK. destruct (key_eqb j (KName n)); [discriminate | apply P].
    + cbn [with_named named names_after]. apply n_remove_keys. exact N.
Qed.

(** ** define on one key *)
Definition pdefine (e : bool) (d : desc) (c : option prop) : bool * option prop :=
  match c with
  | None => if e then (true, Some (new_prop d)) else (false, None)
  | Some p => if no_flags d then (true, Some p)
              else if refused d (desc_of p) then (false, Some p)
              else (true, Some (apply_desc p d (desc_of p)))
  end.

Lemma new_wfp : forall d, wfp (new_prop d).
Proof. intro d. unfold wfp, new_prop. destruct (is_acc d); cbn; [reflexivity | discriminate]. Qed.
Lemma apply_wfp : forall p d, wfp p -> wfp (apply_desc p d (desc_of p)).
Proof.
  intros p d W. unfold wfp, apply_desc in *. destruct (is_data d && is_acc (desc_of p)); cbn; [discriminate|].
  destruct (is_acc d && is_data (desc_of p)); cbn; [reflexivity|]. destruct (acc p) eqn:A; cbn; [exact W | discriminate].
Qed.
Lemma option_map_none : forall (x : option prop), option_map desc_of x = None <-> x = None.
Proof. intros [p|]; cbn; split; congruence. Qed.

Lemma ord_define_spec : forall o k d, base o -> valid_key k ->
  (ord_define o k d = SUB /\ crash o k /\ look o k = None /\ ext o = true) \/
  exists o', ord_define o k d = SOk (o', fst (pdefine (ext o) d (look o k))) /\ upd o o' k (snd (pdefine (ext o) d (look o k))).
Proof.
  intros o k d B V. unfold ord_define, get_own. rewrite o_lookup_spec by assumption. cbn [sbind].
  pose proof (upd_same o k B) as US.
  destruct (look o k) as [p|] eqn:L; cbn [option_map validate_and_apply pdefine].
  - destruct (no_flags d); [right; exists o; split; [reflexivity | exact US]|].
    destruct (refused d (desc_of p)); [right; exists o; split; [reflexivity | exact US]|]. right.
    rewrite o_lookup_spec by assumption. rewrite L. cbn [sbind].
    destruct (o_update_spec o k (apply_desc p d (desc_of p)) B V ltac:(congruence)) as (o' & E & U).
    { apply apply_wfp. apply (b_props o B k p L). }
    rewrite E. cbn [sbind fst snd]. exists o'. split; [reflexivity | exact U].
  - destruct (ext o) eqn:EX; [|right; exists o; split; [reflexivity | exact US]].
    destruct (crash_dec o k) as [C | NC].
    + left. rewrite o_add_crash by assumption. auto.
    + right. destruct (o_add_spec o k (new_prop d) B V L (new_wfp d) NC) as (o' & E & U). rewrite E. cbn [sbind fst snd]. exists o'. split; [reflexivity | exact U].
Qed.

(** *** against ECMA-262 *)
Lemma wf_not_both : forall d, wf_desc d -> is_acc d && is_data d = false.
Proof. intros d [[E1 E2] | [E1 E2]]; unfold is_acc, is_data; rewrite E1, E2; cbn; [reflexivity | rewrite andb_false_r; reflexivity]. Qed.
Lemma is_acc_true : forall d, is_acc d = true <-> is_accessor_desc d.
Proof.
  intro d. unfold is_acc, is_accessor_desc. destruct (d_get d), (d_set d); cbn; split; intro H; try reflexivity; try discriminate; try (left; discriminate); try (right; discriminate).
  destruct H; congruence.
Qed.
Lemma is_data_true : forall d, is_data d = true <-> is_data_desc d.
Proof.
  intro d. unfold is_data, is_data_desc. destruct (d_wr d), (d_val d); cbn; split; intro H; try reflexivity; try discriminate; try (left; discriminate); try (right; discriminate).
  destruct H; congruence.
Qed.
Lemma differs_true : forall x y, differs x (Some y) = true <-> exists a, x = Some a /\ a <> y.
Proof.
  intros [a|] y; cbn.
  - destruct (val_eqb_spec a y) as [-> | N]; cbn; split; [discriminate | intros (b & H & N); congruence | intros _; exists a; auto | reflexivity].
  - split; [discriminate | intros (a & H & _); discriminate].
Qed.

Lemma refused_spec : forall d p, wf_desc d -> wfp p -> (refused d (desc_of p) = true <-> rejected d (view p)).
Proof.
  intros d p W WP. unfold refused, desc_of, view. destruct (acc p) eqn:A; cbn [d_cf d_en d_wr d_val d_get d_set flag is_some].
  - assert (IA : is_acc {| d_val := None; d_wr := None; d_get := Some (pget p); d_set := Some (pset p); d_en := Some (en p); d_cf := Some (cf p) |} = true) by reflexivity.
    rewrite IA. destruct (cf p) eqn:C; cbn [negb andb].
    { split; [discriminate|]. intro R. inversion R; subst; discriminate. }
    rewrite !orb_true_iff, !andb_true_iff, !negb_true_iff. split.
    + intros [[[[H1 H2] | [H1 H2]] | [H1 H2]] | H].
      * apply rej_configurable; [reflexivity|]. destruct (d_cf d) as [[]|]; try discriminate. reflexivity.
      * destruct (d_en d) as [e|] eqn:E; [|discriminate]. apply (rej_enumerable _ _ e); [reflexivity | exact E|]. cbn in H2. apply eqb_false_iff in H2. exact H2.
      * unfold is_generic in H1. apply rej_to_data. apply is_data_true. destruct (is_acc d) eqn:E; [discriminate|]. cbn in H1. destruct (is_data d); [reflexivity | discriminate].
      * destruct (is_acc d) eqn:E.
        -- apply orb_true_iff in H. destruct H as [H | H]; apply differs_true in H; destruct H as (a & H1 & H2); [eapply rej_get | eapply rej_set]; eassumption.
        -- cbn [andb] in H. apply orb_true_iff in H. apply rej_to_data. apply is_data_true. unfold is_data. destruct H as [H | H].
           ++ apply andb_true_iff in H. destruct H as [H _]. rewrite H. reflexivity.
           ++ destruct (d_val d); [apply orb_true_r | discriminate].
    + intro R. inversion R; subst.
      * left. left. left. rewrite H0. auto.
      * left. left. right. rewrite H0. cbn. split; [reflexivity|]. apply eqb_false_iff. exact H1.
      * left. right. apply is_data_true in H0. pose proof (wf_not_both d W) as WB. rewrite H0, andb_true_r in WB. unfold is_generic. rewrite H0, WB. auto.
      * right. assert (E : is_acc d = true) by (unfold is_acc; rewrite H1; reflexivity). rewrite E. apply orb_true_iff. left. apply differs_true. exists x. auto.
      * right. assert (E : is_acc d = true) by (unfold is_acc; rewrite H1; apply orb_true_r). rewrite E. apply orb_true_iff. right. apply differs_true. exists x. auto.
  - assert (IA : is_acc {| d_val := Some (pval p); d_wr := Some (wr p); d_get := None; d_set := None; d_en := Some (en p); d_cf := Some (cf p) |} = false) by reflexivity.
    rewrite IA. destruct (cf p) eqn:C; cbn [negb andb].
    { split; [discriminate|]. intro R. inversion R; subst; discriminate. }
    rewrite !orb_true_iff, !andb_true_iff, !negb_true_iff. split.
    + intros [[[[H1 H2] | [H1 H2]] | [H1 H2]] | H].
      * apply rej_configurable; [reflexivity|]. destruct (d_cf d) as [[]|]; try discriminate. reflexivity.
      * destruct (d_en d) as [e|] eqn:E; [|discriminate]. apply (rej_enumerable _ _ e); [reflexivity | exact E|]. cbn in H2. apply eqb_false_iff in H2. exact H2.
      * apply rej_to_accessor. apply is_acc_true. destruct (is_acc d); [reflexivity | discriminate].
      * destruct (is_acc d) eqn:E; [apply rej_to_accessor; apply is_acc_true; exact E|].
        apply andb_true_iff in H. destruct H as [H1 H]. apply negb_true_iff in H1. rewrite H1. apply orb_true_iff in H. destruct H as [H | H].
        -- apply andb_true_iff in H. apply rej_writable. destruct (d_wr d) as [[]|]; cbn in H; try reflexivity; destruct H; discriminate.
        -- apply differs_true in H. destruct H as (a & H2 & H3). eapply rej_value; eassumption.
    + intro R. inversion R as [? H0 H1|? e0 H0 H1 H2|v0 w0 e0 H1|g0 s0 e0 H1|g0 s0 e0 x H1 H2|g0 s0 e0 x H1 H2|v0 e0 H1|v0 e0 x H1 H2]; subst.
      * left. left. left. rewrite H1. auto.
      * left. left. right. rewrite H1. cbn. split; [reflexivity|]. apply eqb_false_iff. exact H2.
      * left. right. apply is_acc_true in H1. unfold is_generic. rewrite H1. auto.
      * assert (E : is_acc d = false).
        { destruct W as [[E1 E2] | [E1 E2]]; [unfold is_acc; rewrite E1, E2; reflexivity | congruence]. }
        right. rewrite E, H1. reflexivity.
      * assert (E : is_acc d = false).
        { destruct W as [[E1 E2] | [E1 E2]]; [unfold is_acc; rewrite E1, E2; reflexivity | congruence]. }
        right. rewrite E. cbn. apply orb_true_iff. right. apply differs_true. exists x. auto.
Qed.

Lemma no_flags_same : forall d p, no_flags d = true -> changed d (view p) (view p).
Proof.
  intros d p H. unfold no_flags in H. rewrite !andb_true_iff, !negb_true_iff in H. destruct H as [[[H1 H2] H3] H4].
  assert (NA : ~ is_accessor_desc d) by (rewrite <- is_acc_true; congruence). assert (ND : ~ is_data_desc d) by (rewrite <- is_data_true; congruence).
  unfold is_acc in H1. unfold is_data in H2. apply orb_false_iff in H1, H2. destruct H1 as [G1 G2], H2 as [G3 G4].
  assert (E1 : d_get d = None) by (destruct (d_get d); [discriminate | reflexivity]).
  assert (E2 : d_set d = None) by (destruct (d_set d); [discriminate | reflexivity]).
  assert (E3 : d_wr d = None) by (destruct (d_wr d); [discriminate | reflexivity]).
  assert (E4 : d_val d = None) by (destruct (d_val d); [discriminate | reflexivity]).
  assert (E5 : d_en d = None) by (destruct (d_en d); [discriminate | reflexivity]).
  assert (E6 : d_cf d = None) by (destruct (d_cf d); [discriminate | reflexivity]).
  unfold view. destruct (acc p).
  - replace (AAcc (pget p) (pset p) (en p) (cf p)) with (AAcc (dflt (d_get d) (pget p)) (dflt (d_set d) (pset p)) (dflt (d_en d) (en p)) (dflt (d_cf d) (cf p))) at 2
      by (rewrite E1, E2, E5, E6; reflexivity).
    apply ch_accessor. exact ND.
  - replace (AData (pval p) (wr p) (en p) (cf p)) with (AData (dflt (d_val d) (pval p)) (dflt (d_wr d) (wr p)) (dflt (d_en d) (en p)) (dflt (d_cf d) (cf p))) at 2
      by (rewrite E3, E4, E5, E6; reflexivity).
    apply ch_data. exact NA.
Qed.
Lemma keep_dflt : forall {A} (x : option A) y, keep x y = dflt x y.
Proof. intros A [a|] y; reflexivity. Qed.
Lemma apply_spec : forall d p, wf_desc d -> wfp p -> changed d (view p) (view (apply_desc p d (desc_of p))).
Proof.
  intros d p W WP. unfold apply_desc, desc_of, view. destruct (acc p) eqn:A.
  - change (is_acc {| d_val := None; d_wr := None; d_get := Some (pget p); d_set := Some (pset p); d_en := Some (en p); d_cf := Some (cf p) |}) with true.
    change (is_data {| d_val := None; d_wr := None; d_get := Some (pget p); d_set := Some (pset p); d_en := Some (en p); d_cf := Some (cf p) |}) with false.
    rewrite andb_true_r, andb_false_r. destruct (is_data d) eqn:D.
    + cbn [acc wr en cf pval pget pset]. rewrite (WP A). rewrite !keep_dflt.
      replace (if flag (d_wr d) then true else false) with (dflt (d_wr d) false) by (destruct (d_wr d) as [[]|]; reflexivity).
      apply ch_to_data. apply is_data_true. exact D.
    + cbn [acc wr en cf pval pget pset]. rewrite !keep_dflt. apply ch_accessor. rewrite <- is_data_true. congruence.
  - change (is_acc {| d_val := Some (pval p); d_wr := Some (wr p); d_get := None; d_set := None; d_en := Some (en p); d_cf := Some (cf p) |}) with false.
    change (is_data {| d_val := Some (pval p); d_wr := Some (wr p); d_get := None; d_set := None; d_en := Some (en p); d_cf := Some (cf p) |}) with true.
    rewrite andb_true_r, andb_false_r. destruct (is_acc d) eqn:D.
    + cbn [acc wr en cf pval pget pset]. rewrite !keep_dflt. apply ch_to_accessor. apply is_acc_true. exact D.
    + cbn [acc wr en cf pval pget pset]. rewrite !keep_dflt. apply ch_data. rewrite <- is_acc_true. congruence.
Qed.
Lemma new_created : forall d, created d (view (new_prop d)).
Proof.
  intro d. unfold created, new_prop, view. rewrite <- is_acc_true. destruct (is_acc d); cbn [acc wr en cf pval pget pset]; [left | right]; split; try congruence; reflexivity.
Qed.
Lemma no_flags_refused : forall d c, no_flags d = true -> refused d c = false.
Proof.
  intros d c H. unfold no_flags in H. rewrite !andb_true_iff, !negb_true_iff in H. destruct H as [[[H1 H2] H3] H4].
  unfold refused, is_generic. rewrite H1, H2, H3, H4. cbn [negb andb orb].
  unfold is_data in H2. apply orb_false_iff in H2. destruct H2 as [E3 E4]. rewrite E3. unfold differs. destruct (d_val d); [discriminate|]. cbn. rewrite !andb_false_r. reflexivity.
Qed.
Lemma pdefine_ecma : forall e d c, wf_desc d -> (forall p, c = Some p -> wfp p) ->
  ecma_define e d (option_map view c) (fst (pdefine e d c)) (option_map view (snd (pdefine e d c))).
Proof.
  intros e d [p|] W WP; cbn [pdefine option_map].
  - specialize (WP p eq_refl). pose proof (refused_spec d p W WP) as R. destruct (no_flags d) eqn:N; cbn [fst snd option_map].
    + apply ed_changed; [rewrite <- R, (no_flags_refused _ _ N); discriminate | apply no_flags_same; exact N].
    + destruct (refused d (desc_of p)) eqn:RF; cbn [fst snd option_map].
      * apply ed_rejected. apply R. reflexivity.
      * apply ed_changed; [rewrite <- R; discriminate | apply apply_spec; assumption].
  - destruct e; cbn [fst snd option_map]; [apply ed_new; [reflexivity | apply new_created] | apply ed_not_extensible; reflexivity].
Qed.

(** *** stability *)
Lemma changed_stable : forall d a b, ~ rejected d a -> changed d a b -> stable a b.
Proof.
  intros d a b NR C. destruct C as [v w e c A|g s e c A|v w e c A|g s e c A].
  - destruct w; cbn; intros ->; exfalso; apply NR; apply rej_to_accessor; exact A.
  - cbn. intros ->. exfalso. apply NR. apply rej_to_data. exact A.
  - assert (CE : forall x, x = false -> c = x -> dflt (d_en d) e = e /\ dflt (d_cf d) c = false).
    { intros x -> ->. split.
      - destruct (d_en d) as [e'|] eqn:E; [|reflexivity]. cbn. destruct (bool_dec e' e) as [EQ | NE]; [exact EQ|]. exfalso. apply NR. eapply rej_enumerable; [reflexivity | exact E | exact NE].
      - destruct (d_cf d) as [[]|] eqn:E; try reflexivity. exfalso. apply NR. apply rej_configurable; [reflexivity | exact E]. }
    destruct w; cbn; intros ->; destruct (CE false eq_refl eq_refl) as [-> ->]; [eexists _, _; reflexivity|].
    f_equal.
    + destruct (d_val d) as [x|] eqn:E; [|reflexivity]. cbn. destruct (val_eqb_spec x v) as [EQ | NE]; [exact EQ|]. exfalso. apply NR. eapply rej_value; eassumption.
    + destruct (d_wr d) as [[]|] eqn:E; try reflexivity. exfalso. apply NR. apply rej_writable. exact E.
  - cbn. intros ->. f_equal.
    + destruct (d_get d) as [x|] eqn:E; [|reflexivity]. cbn. destruct (val_eqb_spec x g) as [EQ | NE]; [exact EQ|]. exfalso. apply NR. eapply rej_get; eassumption.
    + destruct (d_set d) as [x|] eqn:E; [|reflexivity]. cbn. destruct (val_eqb_spec x s) as [EQ | NE]; [exact EQ|]. exfalso. apply NR. eapply rej_set; eassumption.
    + destruct (d_en d) as [e'|] eqn:E; [|reflexivity]. cbn. destruct (bool_dec e' e) as [EQ | NE]; [exact EQ|]. exfalso. apply NR. eapply rej_enumerable; [reflexivity | exact E | exact NE].
    + destruct (d_cf d) as [[]|] eqn:E; try reflexivity. exfalso. apply NR. apply rej_configurable; [reflexivity | exact E].
Qed.
Lemma stable_refl : forall a, stable a a.
Proof. intros [v [] e c|g s e c]; cbn; intros ->; try reflexivity. eexists _, _. reflexivity. Qed.
Lemma stable_trans : forall a b c, non_configurable a -> stable a b -> stable b c -> stable a c.
Proof.
  intros [v [] e cc|g s e cc] b c N H1 H2; cbn in *; intros _; specialize (H1 N).
  - destruct H1 as (v' & w' & ->). destruct w'; cbn in H2; [apply H2; reflexivity | rewrite (H2 eq_refl); eexists _, _; reflexivity].
  - subst b. apply H2. reflexivity.
  - subst b. apply H2. reflexivity.
Qed.
Lemma stable_nonconf : forall a b, non_configurable a -> stable a b -> non_configurable b.
Proof. intros [v [] e c|g s e c] b N H; cbn in *; specialize (H N); [destruct H as (v' & w' & ->) | subst b | subst b]; reflexivity. Qed.

Lemma pdefine_stable : forall e d p, wf_desc d -> wfp p -> exists q, snd (pdefine e d (Some p)) = Some q /\ stable (view p) (view q).
Proof.
  intros e d p W WP. pose proof (pdefine_ecma e d (Some p) W ltac:(intros q H; injection H as <-; exact WP)) as E.
  destruct (pdefine e d (Some p)) as [b [q|]] eqn:PD; cbn [fst snd option_map] in *.
  - exists q. split; [reflexivity|]. inversion E as [| |x R|x y NR C]; subst; [apply stable_refl | eapply changed_stable; eassumption].
  - inversion E.
Qed.

(** what an object may become *)
Record evolves (o o' : obj) : Prop := {
  e_kind : kind o' = kind o;
  e_ext : ext o = false -> ext o' = false;
  e_proto : ext o = false -> proto o' = proto o;
  e_new : forall k, ext o = false -> look o k = None -> look o' k = None;
  e_stable : forall k p, look o k = Some p -> cf p = false -> exists q, look o' k = Some q /\ stable (view p) (view q)
}.
Lemma view_nonconf : forall p, cf p = false <-> non_configurable (view p).
Proof. intro p. unfold view, non_configurable. destruct (acc p); reflexivity. Qed.
Lemma evolves_refl : forall o, evolves o o.
Proof. intro o. constructor; auto. intros k p H _. exists p. split; [exact H | apply stable_refl]. Qed.
Lemma evolves_trans : forall a b c, evolves a b -> evolves b c -> evolves a c.
Proof.
  intros a b c [K1 X1 P1 N1 S1] [K2 X2 P2 N2 S2]. constructor.
  - congruence.
  - auto.
  - intro H. rewrite P2 by auto. auto.
  - auto.
  - intros k p H C. destruct (S1 k p H C) as (q & Q1 & Q2). destruct (S2 k q Q1) as (r & R1 & R2).
    { apply view_nonconf. apply view_nonconf in C. apply (stable_nonconf _ _ C Q2). }
    exists r. split; [exact R1|]. apply view_nonconf in C. apply (stable_trans _ _ _ C Q2 R2).
Qed.
Lemma upd_define_evolves : forall o o' k d, base o -> wf_desc d -> upd o o' k (snd (pdefine (ext o) d (look o k))) -> evolves o o'.
Proof.
  intros o o' k d B W [K P X B' L _]. constructor; try congruence.
  - intros j HX HL. rewrite L. destruct (key_eqb_spec j k) as [-> | N]; [|exact HL]. rewrite HL. cbn. rewrite HX. reflexivity.
  - intros j p HL C. rewrite L. destruct (key_eqb_spec j k) as [-> | N]; [|exists p; split; [exact HL | apply stable_refl]].
    rewrite HL. apply pdefine_stable; [exact W | apply (b_props o B k p HL)].
Qed.
Lemma upd_delete_evolves : forall o o' k p, upd o o' k None -> look o k = Some p -> cf p = true -> evolves o o'.
Proof.
  intros o o' k p [K P X B' L _] HL C. constructor; try congruence.
  - intros j HX HN. rewrite L. destruct (key_eqb j k); [reflexivity | exact HN].
  - intros j q HQ CQ. rewrite L. destruct (key_eqb_spec j k) as [-> | N]; [congruence|]. exists q. split; [exact HQ | apply stable_refl].
Qed.

(** ** cutting the indices of an array *)
Definition bound (n : Z) (t : tree) : Z := match blocker n t with Some b => b + 1 | None => n end.
Lemma below_find : forall t m i, t_find (below m t) i = if i <? m then t_find t i else None.
Proof.
  intros t m i. induction t as [|[j q] t IH]; cbn [below filter t_find]; [destruct (i <? m); reflexivity|]. fold (below m t). cbn [fst].
  destruct (Z.ltb_spec j m) as [L | L]; cbn [t_find]; rewrite IH.
  - destruct (Z.eqb_spec j i) as [E | N]; [|reflexivity]. subst. rewrite (proj2 (Z.ltb_lt i m)) by exact L. reflexivity.
  - destruct (Z.eqb_spec j i) as [E | N]; [|reflexivity]. subst. rewrite (proj2 (Z.ltb_ge i m)) by exact L. reflexivity.
Qed.
Lemma cut_find : forall n t i, t_find (cut_to n t) i = if i <? bound n t then t_find t i else None.
Proof. intros n t i. unfold cut_to, bound. destruct (blocker n t); apply below_find. Qed.
Lemma blocker_some : forall n t b, sorted t -> blocker n t = Some b ->
  n <= b /\ (exists p, t_find t b = Some p /\ cf p = false) /\ (forall j q, t_find t j = Some q -> b < j -> cf q = true).
Proof.
  intros n t b. induction t as [|[i p] t IH]; intros S B; [discriminate|]. apply sorted_cons in S. destruct S as [S A]. rewrite Forall_forall in A. cbn [fst] in A.
  cbn [blocker] in B. destruct (blocker n t) as [b'|] eqn:E.
  - injection B as ->. destruct (IH S eq_refl) as (H1 & (q & H2 & H3) & H4). split; [exact H1|].
    assert (i < b) by (apply find_in in H2; specialize (A _ H2); exact A). split.
    + exists q. split; [|exact H3]. cbn [t_find]. rewrite (proj2 (Z.eqb_neq i b)) by lia. exact H2.
    + intros j r. cbn [t_find]. destruct (Z.eqb_spec i j) as [EQ | NE]; [intros; lia | apply H4].
  - destruct (n <=? i) eqn:L; [|discriminate]. destruct (cf p) eqn:C; [discriminate|]. cbn in B. injection B as <-. apply Z.leb_le in L. split; [exact L|]. split.
    + exists p. cbn. rewrite Z.eqb_refl. auto.
    + intros j r. cbn [t_find]. destruct (Z.eqb_spec i j) as [EQ | NE]; [intros; lia|]. intros F LT.
      destruct (cf r) eqn:CR; [reflexivity|]. exfalso. clear - E F CR LT L. induction t as [|[k q] t IH]; [discriminate|]. cbn [blocker] in E. destruct (blocker n t); [discriminate|].
      cbn in F. destruct (Z.eqb_spec k j) as [EQ | NE]; [|apply IH; [reflexivity | exact F]]. injection F as ->. rewrite CR in E. rewrite (proj2 (Z.leb_le n k)) in E by lia. discriminate.
Qed.
Lemma blocker_none_conf : forall n t, blocker n t = None -> forall j q, t_find t j = Some q -> n <= j -> cf q = true.
Proof.
  intros n t. induction t as [|[k q] t IH]; intros E j r F L; [discriminate|]. cbn [blocker] in E. destruct (blocker n t); [discriminate|].
  cbn in F. destruct (Z.eqb_spec k j) as [EQ | NE]; [|apply IH with j; auto]. injection F as ->. destruct (cf r); [reflexivity|]. rewrite (proj2 (Z.leb_le n k)) in E by lia. discriminate.
Qed.
Lemma cut_keeps : forall n t j q, sorted t -> t_find t j = Some q -> cf q = false -> j < bound n t.
Proof.
  intros n t j q S F C. unfold bound. destruct (blocker n t) as [b|] eqn:E.
  - destruct (blocker_some n t b S E) as (_ & _ & H). specialize (H j q F). destruct (Z_lt_dec b j); [rewrite H in C by assumption; discriminate | lia].
  - destruct (Z_lt_dec j n); [assumption|]. rewrite (blocker_none_conf n t E j q F) in C by lia. discriminate.
Qed.
Lemma bound_ge : forall n t, sorted t -> n <= bound n t.
Proof. intros n t S. unfold bound. destruct (blocker n t) as [b|] eqn:E; [|lia]. destruct (blocker_some n t b S E) as (H & _). lia. Qed.

Record trunc (o o' : obj) (m : Z) : Prop := {
  t_kind : kind o' = kind o;
  t_proto : proto o' = proto o;
  t_ext : ext o' = ext o;
  t_base : base o';
  t_named : named o' = named o;
  t_look : forall j, look o' j = match j with KIdx i => if i <? m then look o j else None | _ => look o j end
}.
Lemma cut_obj : forall o n, base o -> 0 <= n ->
  exists s, s_cut (arr o) n = SOk (s, blocker n (lst (its (arr o)))) /\ trunc o (with_arr o s) (bound n (lst (its (arr o)))).
Proof.
  intros o n [A N P] N0. destruct (cut_spec (arr o) n A N0) as (s & E & I & L). exists s. split; [exact E|].
  assert (LK : forall j, look (with_arr o s) j = match j with KIdx i => if i <? bound n (lst (its (arr o))) then look o j else None | _ => look o j end).
  { intros [i|m]; cbn [look with_arr arr]; [|reflexivity]. rewrite L. apply cut_find. }
  constructor; try reflexivity; [|exact LK]. constructor; [exact I | exact N|]. intros k p. rewrite LK. destruct k as [i|m]; [|apply P].
  destruct (i <? bound n (lst (its (arr o)))); [apply P | discriminate].
Qed.
Lemma trunc_evolves : forall o n o', base o -> trunc o o' (bound n (lst (its (arr o)))) -> evolves o o'.
Proof.
  intros o n o' B [K P X B' NM L]. constructor; try congruence.
  - intros k HX HN. rewrite L. destruct k as [i|m]; [|exact HN]. destruct (i <? _); [exact HN | reflexivity].
  - intros k p HL C. rewrite L. destruct k as [i|m]; [|exists p; split; [exact HL | apply stable_refl]].
    cbn [look] in HL. rewrite (proj2 (Z.ltb_lt i _)) by (eapply cut_keeps; [apply (inv_sorted _ (b_arr o B)) | exact HL | exact C]).
    exists p. split; [exact HL | apply stable_refl].
Qed.

(** ** arrays *)
Record len_prop (p : prop) (n : Z) : Prop := { l_acc : acc p = false; l_cf : cf p = false; l_val : pval p = Num n; l_range : 0 <= n <= limit }.
Definition arr_ok (o : obj) : Prop :=
  exists p n, look o (KName length_key) = Some p /\ len_prop p n /\ (forall i q, look o (KIdx i) = Some q -> i < n).
Record OInv (o : obj) : Prop := { oi_base : base o; oi_arr : kind o = Array -> arr_ok o; oi_exo : kind o = Exotic -> proto o = None }.

Lemma len_pdefine : forall e d p n, wf_desc d -> len_prop p n ->
  (forall v, d_val d = Some v -> exists m, v = Num m /\ 0 <= m <= limit) ->
  exists q, snd (pdefine e d (Some p)) = Some q /\ len_prop q (match d_val d with Some (Num m) => if fst (pdefine e d (Some p)) then m else n | _ => n end).
Proof.
  intros e d p n W LP V. pose proof (pdefine_ecma e d (Some p) W) as E.
  destruct LP as [A C VL R]. assert (WP : wfp p) by (unfold wfp; congruence). specialize (E ltac:(intros q H; injection H as <-; exact WP)).
  destruct (pdefine_stable e d p W WP) as (q & Q1 & Q2). cbn [pdefine] in *. unfold view in Q2. rewrite A in Q2.
  destruct (no_flags d) eqn:NF.
  - exists p. cbn [fst snd]. split; [reflexivity|].
    assert (DV : d_val d = None).
    { unfold no_flags, is_data in NF. destruct (d_val d); [rewrite orb_true_r, andb_false_r in NF; discriminate | reflexivity]. }
    rewrite DV. constructor; assumption.
  - destruct (refused d (desc_of p)) eqn:RF; cbn [fst snd] in *.
    + exists p. split; [reflexivity|]. assert (Hn : match d_val d with Some (Num _) => n | _ => n end = n) by (destruct (d_val d) as [[]|]; reflexivity). rewrite Hn. constructor; assumption.
    + exists (apply_desc p d (desc_of p)). split; [reflexivity|]. cbn [option_map] in E. inversion E as [| |x RR EQ|x y NR CH E1 E2]; subst.
      assert (NA : is_acc d = false).
      { destruct (is_acc d) eqn:IA; [|reflexivity]. exfalso. apply NR. unfold view. rewrite A, C. apply rej_to_accessor. apply is_acc_true. exact IA. }
      assert (CF : d_cf d <> Some true).
      { intro H. apply NR. apply rej_configurable; [unfold view; rewrite A; exact C | exact H]. }
      unfold apply_desc, desc_of. rewrite A, NA. change (is_acc {| d_val := Some (pval p); d_wr := Some (wr p); d_get := None; d_set := None; d_en := Some (en p); d_cf := Some (cf p) |}) with false.
      rewrite andb_false_r. cbn [andb]. constructor; cbn [acc cf pval].
      * reflexivity.
      * rewrite C. destruct (d_cf d) as [[]|]; cbn; congruence.
      * destruct (d_val d) as [v|]; cbn [keep]; [|exact VL]. destruct (V v eq_refl) as (m & -> & _). reflexivity.
      * destruct (d_val d) as [v|]; [|exact R]. destruct (V v eq_refl) as (m & -> & H). exact H.
Qed.

Lemma array_len_spec : forall o p n, base o -> look o (KName length_key) = Some p -> len_prop p n -> array_len o = SOk (n, desc_of p).
Proof.
  intros o p n B L [A C V R]. unfold array_len, get_own. rewrite (o_lookup_spec o (KName length_key) B Logic.I), L. cbn [sbind option_map]. unfold desc_of. rewrite A. cbn [d_val]. rewrite V. reflexivity.
Qed.

Lemma len_wf : forall d, d_get d = None -> d_set d = None -> wf_desc d.
Proof. intros d A B. left. auto. Qed.
Lemma upd_look_other : forall o o' k r j, upd o o' k r -> j <> k -> look o' j = look o j.
Proof. intros o o' k r j U N. rewrite (u_look _ _ _ _ U). destruct (key_eqb_spec j k); [contradiction | reflexivity]. Qed.
Lemma upd_look_same : forall o o' k r, upd o o' k r -> look o' k = r.
Proof. intros o o' k r U. rewrite (u_look _ _ _ _ U), key_refl. reflexivity. Qed.

(** define on the length *)
Lemma ord_define_len : forall o d, base o -> exists o',
  ord_define o (KName length_key) d = SOk (o', fst (pdefine (ext o) d (look o (KName length_key)))) /\
  upd o o' (KName length_key) (snd (pdefine (ext o) d (look o (KName length_key)))).
Proof.
  intros o d B. destruct (ord_define_spec o (KName length_key) d B Logic.I) as [(_ & (i & H & _) & _) | H]; [discriminate | exact H].
Qed.
