(** The binding cache is invisible to code whose environments hold exactly
    the bindings of their scopes. *)
Require Import List ZArith Lia Bool Wf_nat.
Require Import Verif.EnvModel Verif.EnvSpec.
Import ListNotations.

Local Opaque u16 none.

(** ** Lists *)

Lemma upd_len : forall A (l : list A) i a, length (upd i a l) = length l.
Proof. induction l as [|x l IH]; intros [|i] a; cbn; auto. Qed.

Lemma nth_upd : forall A (l : list A) i a j,
  nth_error (upd i a l) j =
  if Nat.eqb j i then (if Nat.ltb i (length l) then Some a else None) else nth_error l j.
Proof.
  induction l as [|x l IH]; intros i a j.
  - destruct i; cbn; destruct j; cbn; try reflexivity; destruct (Nat.eqb j i); reflexivity.
  - destruct i as [|i]; destruct j as [|j]; cbn; auto.
    rewrite IH. destruct (Nat.eqb j i); auto.
Qed.

Lemma nth_upd_same : forall A (l : list A) i a b,
  nth_error l i = Some b -> nth_error (upd i a l) i = Some a.
Proof.
  intros. rewrite nth_upd, Nat.eqb_refl.
  assert (i < length l) by (apply nth_error_Some; congruence).
  destruct (Nat.ltb_spec i (length l)); auto; lia.
Qed.

Lemma nth_upd_other : forall A (l : list A) i a j,
  j <> i -> nth_error (upd i a l) j = nth_error l j.
Proof. intros. rewrite nth_upd. destruct (Nat.eqb_spec j i); congruence. Qed.

Lemma upd_id : forall A (l : list A) i a, nth_error l i = Some a -> upd i a l = l.
Proof.
  induction l as [|x l IH]; intros [|i] a H; cbn in *; try discriminate; auto.
  - inversion H; auto.
  - f_equal; auto.
Qed.

Lemma map_upd : forall A B (f : A -> B) (l : list A) i a,
  map f (upd i a l) = upd i (f a) (map f l).
Proof. induction l as [|x l IH]; intros [|i] a; cbn; auto. rewrite IH; auto. Qed.

Lemma nth_app_l : forall A (l l' : list A) i a,
  nth_error l i = Some a -> nth_error (l ++ l') i = Some a.
Proof.
  intros. rewrite nth_error_app1; auto. apply nth_error_Some; congruence.
Qed.

Lemma nth_last : forall A (l : list A) a, nth_error (l ++ [a]) (length l) = Some a.
Proof. intros. rewrite nth_error_app2, Nat.sub_diag; auto. Qed.

Lemma nth_snoc : forall A (l : list A) a i b,
  nth_error (l ++ [a]) i = Some b ->
  nth_error l i = Some b \/ (i = length l /\ a = b).
Proof.
  intros A l a i b H. destruct (Nat.lt_ge_cases i (length l)) as [L|L].
  - rewrite nth_error_app1 in H; auto.
  - rewrite nth_error_app2 in H; auto. right.
    destruct (i - length l) as [|k] eqn:E.
    + cbn in H. inversion H. split; [lia|auto].
    + cbn in H. destruct k; discriminate.
Qed.

(** Position of a name. *)
Fixpoint pos (n : name) (l : list name) : option nat :=
  match l with
  | [] => None
  | m :: t => if Nat.eqb n m then Some O else option_map S (pos n t)
  end.

Lemma pos_nth : forall n l i, pos n l = Some i -> nth_error l i = Some n.
Proof.
  induction l as [|m l IH]; cbn; intros i H; try discriminate.
  destruct (Nat.eqb_spec n m).
  - inversion H; subst; reflexivity.
  - destruct (pos n l) eqn:E; cbn in H; inversion H; subst. cbn. auto.
Qed.

Lemma pos_none : forall n l, pos n l = None -> ~ In n l.
Proof.
  induction l as [|m l IH]; cbn; intros H; auto.
  destruct (Nat.eqb_spec n m); try discriminate.
  destruct (pos n l) eqn:E; cbn in H; try discriminate.
  intros [->|K]; auto. apply IH; auto.
Qed.

Lemma pos_in : forall n l, In n l -> exists i, pos n l = Some i.
Proof.
  intros n l H. destruct (pos n l) eqn:E; eauto. apply pos_none in E; tauto.
Qed.

Lemma nth_pos : forall l n i, NoDup l -> nth_error l i = Some n -> pos n l = Some i.
Proof.
  induction l as [|m l IH]; intros n i ND H.
  - destruct i; discriminate.
  - inversion ND; subst. destruct i as [|i]; cbn in *.
    + inversion H; subst. rewrite Nat.eqb_refl; auto.
    + destruct (Nat.eqb_spec n m).
      * subst. exfalso. apply H2. eapply nth_error_In; eauto.
      * rewrite (IH n i); auto.
Qed.

Lemma pos_app : forall n l l' i, pos n l = Some i -> pos n (l ++ l') = Some i.
Proof.
  induction l as [|m l IH]; cbn; intros l' i H; try discriminate.
  destruct (Nat.eqb n m); auto.
  destruct (pos n l) eqn:E; cbn in H; inversion H; subst.
  rewrite (IH l' n0); auto.
Qed.

Lemma assoc_combine_seq : forall n l k m, length l = m ->
  assoc n (combine l (seq k m)) = option_map (fun i => (k + i)%nat) (pos n l).
Proof.
  induction l as [|x l IH]; intros k m H; subst m; cbn; auto.
  destruct (Nat.eqb n x); cbn; [f_equal; lia|].
  rewrite IH by auto. destruct (pos n l); cbn; [f_equal; lia|reflexivity].
Qed.

Lemma assoc_pos : forall A n (l : list (name * A)),
  assoc n l = match pos n (map fst l) with Some i => nth_error (map snd l) i | None => None end.
Proof.
  induction l as [|[m a] l IH]; cbn; auto.
  destruct (Nat.eqb n m); auto.
  rewrite IH. destruct (pos n (map fst l)); auto.
Qed.

Lemma known_pos : forall A n (l : list (name * A)),
  known n l = match pos n (map fst l) with Some _ => true | None => false end.
Proof.
  intros. unfold known. rewrite assoc_pos.
  destruct (pos n (map fst l)) eqn:E; auto.
  apply pos_nth in E. assert (n0 < length (map fst l)) by (apply nth_error_Some; congruence).
  rewrite map_length in H. destruct (nth_error (map snd l) n0) eqn:F; auto.
  apply nth_error_None in F. rewrite map_length in F. lia.
Qed.

Lemma known_in : forall A n (l : list (name * A)), known n l = true <-> In n (map fst l).
Proof.
  intros. rewrite known_pos. split.
  - destruct (pos n (map fst l)) eqn:E; try discriminate. intros _.
    apply pos_nth in E. eapply nth_error_In; eauto.
  - intros H. apply pos_in in H as [i ->]; auto.
Qed.

Lemma assoc_set_keys : forall A n (a : A) l, In n (map fst l) ->
  map fst (assoc_set n a l) = map fst l.
Proof.
  induction l as [|[m b] l IH]; cbn; intros H; [tauto|].
  destruct (Nat.eqb_spec n m); auto. cbn. f_equal. apply IH. destruct H; congruence.
Qed.

Lemma assoc_set_pos : forall A n (a : A) l i, pos n (map fst l) = Some i ->
  map snd (assoc_set n a l) = upd i a (map snd l).
Proof.
  induction l as [|[m b] l IH]; cbn; intros i H; try discriminate.
  destruct (Nat.eqb n m); [inversion H; subst; auto|].
  destruct (pos n (map fst l)) eqn:E; cbn in H; inversion H; subst.
  cbn. f_equal. auto.
Qed.

Lemma known_set : forall A n m (a : A) l, known n l = true -> known n (assoc_set m a l) = true.
Proof.
  unfold known. induction l as [|[k b] l IH]; cbn; intros H; try discriminate.
  destruct (Nat.eqb_spec m k).
  - cbn. destruct (Nat.eqb n k); auto.
  - cbn. destruct (Nat.eqb n k); auto.
Qed.

Lemma map_fst_combine : forall A B (l : list (A * B)), l = combine (map fst l) (map snd l).
Proof. induction l as [|[a b] l IH]; cbn; congruence. Qed.

(** ** Chains *)

Definition acyc (l : list senv) : Prop :=
  forall i en o, nth_error l i = Some en -> s_outer en = Some o -> (o < i)%nat.

Lemma chain_fuel : forall l, acyc l -> forall i f g, (i < f)%nat -> (i < g)%nat ->
  chain f l (Some i) = chain g l (Some i).
Proof.
  intros l A i. induction i as [i IH] using lt_wf_ind. intros f g Hf Hg.
  destruct f as [|f]; [lia|]. destruct g as [|g]; [lia|]. cbn. f_equal.
  destruct (nth_error l i) as [en|] eqn:E; auto.
  destruct (s_outer en) as [o|] eqn:O.
  - assert (o < i)%nat by (eapply A; eauto). apply IH; lia.
  - destruct f, g; auto.
Qed.

Lemma chain_step : forall s i en, acyc (senvs s) -> nth_error (senvs s) i = Some en ->
  chain_of s i = i :: match s_outer en with Some o => chain_of s o | None => [] end.
Proof.
  intros s i en A H. unfold chain_of at 1.
  assert (i < length (senvs s))%nat by (apply nth_error_Some; congruence).
  cbn [chain]. rewrite H. f_equal.
  destruct (s_outer en) as [o|] eqn:O.
  - assert (o < i)%nat by (eapply A; eauto).
    unfold chain_of. apply chain_fuel; auto; lia.
  - destruct (length (senvs s)); auto.
Qed.

(** Same shape: kinds, scopes and outer pointers. *)
Definition shape (en : senv) := (s_kind en, s_scope en, s_outer en).

Lemma chain_shape : forall l l', map shape l = map shape l' -> forall f e, chain f l e = chain f l' e.
Proof.
  intros l l' H. induction f as [|f IH]; intros [i|]; cbn; auto. f_equal.
  assert (E : nth_error (map shape l) i = nth_error (map shape l') i) by congruence.
  rewrite !nth_error_map in E.
  destruct (nth_error l i) as [a|], (nth_error l' i) as [b|]; cbn in E; try discriminate; auto.
  inversion E as [[H1 H2 H3]]. rewrite H3; auto.
Qed.

Lemma chain_of_shape : forall s s', map shape (senvs s) = map shape (senvs s') ->
  forall e, chain_of s e = chain_of s' e.
Proof.
  intros s s' H e. unfold chain_of.
  assert (length (senvs s) = length (senvs s')).
  { rewrite <- (map_length shape (senvs s)), H, map_length. auto. }
  rewrite H0. apply chain_shape; auto.
Qed.

Lemma chain_app : forall l x, acyc l ->
  (forall i en o, nth_error l i = Some en -> s_outer en = Some o -> (o < length l)%nat) ->
  forall f i, (i < length l)%nat -> chain f (l ++ [x]) (Some i) = chain f l (Some i).
Proof.
  intros l x A B f. induction f as [|f IH]; intros i Hi; auto.
  cbn. f_equal. rewrite nth_error_app1 by auto.
  destruct (nth_error l i) as [en|] eqn:E; auto.
  destruct (s_outer en) as [o|] eqn:O.
  - apply IH. eapply B; eauto.
  - destruct f; auto.
Qed.

Fixpoint schain (fuel : nat) (T : table) (s : nat) : list nat :=
  match fuel with
  | O => []
  | S f => s :: match t_parent T s with Some p => schain f T p | None => [] end
  end.
Definition schain_of (T : table) (s : nat) : list nat := schain (S s) T s.

Lemma schain_fuel : forall T, wf_table T -> forall s f g, (s < f)%nat -> (s < g)%nat ->
  schain f T s = schain g T s.
Proof.
  intros T W s. induction s as [s IH] using lt_wf_ind. intros f g Hf Hg.
  destruct f; [lia|]. destruct g; [lia|]. cbn. f_equal.
  destruct (t_parent T s) as [p|] eqn:P; auto.
  assert (p < s)%nat by (eapply wf_parent; eauto). apply IH; lia.
Qed.

Lemma schain_step : forall T s, wf_table T ->
  schain_of T s = s :: match t_parent T s with Some p => schain_of T p | None => [] end.
Proof.
  intros T s W. unfold schain_of at 1. cbn [schain]. f_equal.
  destruct (t_parent T s) as [p|] eqn:P; auto.
  assert (p < s)%nat by (eapply wf_parent; eauto). apply schain_fuel; auto; lia.
Qed.

(** ** Invariants *)

Record sinv (T : table) (s : sst) : Prop := {
  si_outer : forall i en, nth_error (senvs s) i = Some en ->
    match s_outer en with
    | None => t_parent T (s_scope en) = None
    | Some o => (o < i)%nat /\ exists oe, nth_error (senvs s) o = Some oe /\
                                      t_parent T (s_scope en) = Some (s_scope oe)
    end;
  si_kind : forall i en, nth_error (senvs s) i = Some en -> kind_ok (s_kind en) (t_kind T (s_scope en));
  si_decl : forall i en, nth_error (senvs s) i = Some en -> t_kind T (s_scope en) = SDecl ->
    exists more, t_names T (s_scope en) = map fst (s_binds en) ++ more;
  si_glob : forall i en, nth_error (senvs s) i = Some en -> t_kind T (s_scope en) = SGlobal ->
    NoDup (map fst (s_binds en)) /\ (Z.of_nat (length (s_binds en)) <= 65536)%Z;
  si_del : forall i en n c, nth_error (senvs s) i = Some en -> In (n, c) (s_binds en) -> s_del c = false;
  si_uniq : forall i j a b, nth_error (senvs s) i = Some a -> nth_error (senvs s) j = Some b ->
    s_scope a = s_scope b -> t_kind T (s_scope a) = SGlobal -> i = j;
  si_depth : forall i en, nth_error (senvs s) i = Some en ->
    (Z.of_nat (length (chain_of s i)) <= 65535)%Z }.

Lemma sinv_acyc : forall T s, sinv T s -> acyc (senvs s).
Proof.
  intros T s I i en o H O. pose proof (si_outer T s I i en H) as K. rewrite O in K. tauto.
Qed.

Lemma sinv_with_nobinds_nodup : forall T s i en, wf_table T -> sinv T s ->
  nth_error (senvs s) i = Some en -> t_kind T (s_scope en) <> SWith -> NoDup (map fst (s_binds en)).
Proof.
  intros T s i en W I H K. destruct (t_kind T (s_scope en)) eqn:E; try congruence.
  - destruct (si_decl T s I i en H E) as [m M].
    pose proof (wf_nodup T W (s_scope en)) as N. rewrite M in N.
    clear - N. induction (map fst (s_binds en)) as [|x l IH]; [constructor|].
    cbn in N. inversion N; subst. constructor; auto. intros X. apply H1. apply in_app_iff; auto.
  - apply (si_glob T s I i en H E).
Qed.

Definition nm_at (s : sst) (i : nat) (sc : nat) : Prop :=
  exists en, nth_error (senvs s) i = Some en /\ s_scope en = sc.

Lemma chain_scopes : forall T s, wf_table T -> sinv T s -> forall i en,
  nth_error (senvs s) i = Some en ->
  Forall2 (nm_at s) (chain_of s i) (schain_of T (s_scope en)).
Proof.
  intros T s W I i. induction i as [i IH] using lt_wf_ind. intros en H.
  rewrite (chain_step s i en) by (eauto using sinv_acyc).
  rewrite schain_step by auto. constructor.
  { exists en; auto. }
  pose proof (si_outer T s I i en H) as K.
  destruct (s_outer en) as [o|].
  - destruct K as (L & oe & Ho & P). rewrite P. apply IH; auto.
  - rewrite K. constructor.
Qed.

Lemma Forall2_nth : forall A B (R : A -> B -> Prop) l l' k a, Forall2 R l l' ->
  nth_error l k = Some a -> exists b, nth_error l' k = Some b /\ R a b.
Proof.
  intros A B R l l' k a F. revert k. induction F; intros k H1.
  - destruct k; discriminate.
  - destruct k; cbn in *; [inversion H1; subst; eauto|eauto].
Qed.

Lemma Forall2_nth' : forall A B (R : A -> B -> Prop) l l' k b, Forall2 R l l' ->
  nth_error l' k = Some b -> exists a, nth_error l k = Some a /\ R a b.
Proof.
  intros A B R l l' k b F. revert k. induction F; intros k H1.
  - destruct k; discriminate.
  - destruct k; cbn in *; [inversion H1; subst; eauto|eauto].
Qed.

Definition erase (c : cell) : scell :=
  mkS (c_init c) (c_immut c) (c_strict c) (c_del c) (c_val c).

(** One environment of the model against one of the specification. *)
Record erel (s : sst) (i : nat) (en : env) (se : senv) : Prop := {
  er_kind : e_kind en = s_kind se;
  er_scope : e_scope en = s_scope se;
  er_outer : e_outer en = s_outer se;
  er_cache : e_cache en = true;
  er_depth : e_depth en = (Z.of_nat (length (chain_of s i)) - 1)%Z;
  er_stack : e_stack en = None \/ e_stack en = Some (tl (chain_of s i));
  er_cells : exists cs,
    e_cells en = map Some cs /\
    e_vec en = seq 0 (length cs) /\
    e_hash en = combine (map fst (s_binds se)) (seq 0 (length cs)) /\
    map snd (s_binds se) = map erase cs /\
    (forall j c, nth_error cs j = Some c -> c_idx c = Z.of_nat j) }.

(** What a filled cache says. *)
Definition cached (T : table) (s : sst) (sc : nat) (rf : ref) : Prop :=
  exists k sk,
    r_eidx rf = Z.of_nat k /\
    nth_error (schain_of T sc) k = Some sk /\
    (forall j sj, (j < k)%nat -> nth_error (schain_of T sc) j = Some sj ->
        t_kind T sj = SDecl /\ ~ In (r_name rf) (t_names T sj)) /\
    ((t_kind T sk = SDecl /\ In (r_name rf) (t_names T sk) /\
      (r_bidx rf <> none -> exists i, r_bidx rf = Z.of_nat i /\
                                      nth_error (t_names T sk) i = Some (r_name rf))) \/
     (t_kind T sk = SGlobal /\
      exists e en, nth_error (senvs s) e = Some en /\ s_scope en = sk /\
                   s_has s en (r_name rf) = true /\
        (r_bidx rf <> none -> exists i, r_bidx rf = Z.of_nat i /\
                                      nth_error (map fst (s_binds en)) i = Some (r_name rf)))).

Record rinv (T : table) (s : sst) (l : list ref) : Prop := {
  ri_len : length l = length (t_refs T);
  ri_ok : forall r rf, nth_error l r = Some rf -> exists sc,
    nth_error (t_refs T) r = Some (sc, r_name rf) /\
    (r_eidx rf = none -> r_bidx rf = none) /\
    (r_eidx rf <> none -> cached T s sc rf) }.

Record sim (T : table) (m : st) (s : sst) : Prop := {
  sm_inv : sinv T s;
  sm_len : length (envs m) = length (senvs s);
  sm_env : forall i en se, nth_error (envs m) i = Some en -> nth_error (senvs s) i = Some se ->
             erel s i en se;
  sm_ref : rinv T s (refs m);
  sm_obj : objs m = sobjs s }.

Lemma sim_env : forall T m s, sim T m s -> forall i se, nth_error (senvs s) i = Some se ->
  exists en, nth_error (envs m) i = Some en /\ erel s i en se.
Proof.
  intros T m s S i se H.
  destruct (nth_error (envs m) i) as [en|] eqn:E.
  - exists en. split; auto. eapply sm_env; eauto.
  - apply nth_error_None in E. rewrite (sm_len T m s S) in E.
    apply nth_error_None in E. congruence.
Qed.

Lemma sim_ref : forall T m s, sim T m s -> forall r, (r < length (t_refs T))%nat ->
  exists rf sc, nth_error (refs m) r = Some rf /\ nth_error (t_refs T) r = Some (sc, r_name rf) /\
    rnm T r = r_name rf /\ rscope T r = Some sc /\
    (r_eidx rf = none -> r_bidx rf = none) /\ (r_eidx rf <> none -> cached T s sc rf).
Proof.
  intros T m s S r H. rewrite <- (ri_len _ _ _ (sm_ref _ _ _ S)) in H.
  apply nth_error_Some in H. destruct (nth_error (refs m) r) as [rf|] eqn:E; [|congruence].
  destruct (ri_ok _ _ _ (sm_ref _ _ _ S) r rf E) as (sc & A & B & C).
  exists rf, sc. unfold rnm, rscope. rewrite A. cbn. auto 10.
Qed.

(** Changing a cache entry. *)
Lemma sim_set_ref : forall T m s r rf rf' sc, sim T m s -> nth_error (refs m) r = Some rf ->
  nth_error (t_refs T) r = Some (sc, r_name rf') ->
  (r_eidx rf' = none -> r_bidx rf' = none) -> (r_eidx rf' <> none -> cached T s sc rf') ->
  sim T (set_ref m r rf') s.
Proof.
  intros T m s r rf rf' sc S H A B C. destruct S as [S1 S2 S3 S4 S5].
  constructor; cbn; auto. destruct S4 as [L O]. constructor.
  - rewrite upd_len; auto.
  - intros q qf Hq. destruct (Nat.eq_dec q r) as [->|N].
    + rewrite (nth_upd_same _ _ _ _ _ H) in Hq. inversion Hq; subst qf. exists sc; auto.
    + rewrite nth_upd_other in Hq by auto. apply O; auto.
Qed.

(** ** Reading the cache *)

Lemma chain_nth_pre : forall A (pre post : list A) e j x, nth_error (pre ++ e :: post) j = Some x ->
  (j < length pre)%nat -> In x pre.
Proof.
  intros. rewrite nth_error_app1 in H by auto. eapply nth_error_In; eauto.
Qed.

(** The environment a reference is used on is where its cache points. *)
Lemma reaches_level : forall T m s e se r rf sc, wf_table T -> sim T m s ->
  nth_error (senvs s) e = Some se -> t_kind T (s_scope se) <> SWith ->
  reaches T s e r -> rscope T r = Some sc -> rnm T r = r_name rf ->
  r_eidx rf <> none -> cached T s sc rf ->
  (t_kind T (s_scope se) = SDecl ->
     In (r_name rf) (t_names T (s_scope se)) /\
     (r_bidx rf <> none -> exists i, r_bidx rf = Z.of_nat i /\
                                     nth_error (t_names T (s_scope se)) i = Some (r_name rf))) /\
  (t_kind T (s_scope se) = SGlobal ->
     r_bidx rf <> none -> exists i, r_bidx rf = Z.of_nat i /\
                                    nth_error (map fst (s_binds se)) i = Some (r_name rf)) /\
  (exists k, r_eidx rf = Z.of_nat k /\ nth_error (schain_of T sc) k = Some (s_scope se)).
Proof.
  intros T m s e se r rf sc W S He Kw Rch Rs Rn En C.
  destruct Rch as (b & ben & pre & post & Hb & Hs & Hc & Hpre & Hin).
  rewrite Rs in Hs. inversion Hs; subst sc.
  pose proof (chain_scopes T s W (sm_inv _ _ _ S) b ben Hb) as F.
  destruct C as (k & sk & Hk & Hsk & Hless & Hend).
  rewrite Hc in F.
  assert (He' : nth_error (pre ++ e :: post) (length pre) = Some e)
    by (rewrite nth_error_app2, Nat.sub_diag; auto).
  destruct (Forall2_nth _ _ _ _ _ _ _ F He') as (se' & Hse & (en' & X1 & X2)).
  rewrite He in X1. inversion X1; subst en'. subst se'.
  assert (SD : t_kind T (s_scope se) = SDecl -> In (r_name rf) (t_names T (s_scope se))).
  { intros D. destruct (si_decl T s (sm_inv _ _ _ S) e se He D) as [more ->].
    apply in_app_iff. left. rewrite <- Rn. eapply Hin; eauto. }
  assert (SL : length pre = k).
  { destruct (Nat.lt_total (length pre) k) as [L|[L|L]]; auto; exfalso.
    - destruct (Hless _ _ L Hse) as [D1 D2]. auto.
    - destruct (Forall2_nth' _ _ _ _ _ _ _ F Hsk) as (i & Hi & (ien & Y1 & Y2)).
      assert (In i pre) by (eapply chain_nth_pre; eauto).
      destruct Hend as [(D & D1 & _)|(G & _)].
      + subst sk. rewrite <- Rn in D1. eapply Hpre; eauto.
      + (* a global scope ends the chain *)
        pose proof (wf_global T W sk G) as P.
        assert (forall sc0 j sj, nth_error (schain_of T sc0) j = Some sj -> t_parent T sj = None ->
                  length (schain_of T sc0) = Datatypes.S j) as LAST.
        { clear - W. intros sc0. induction sc0 as [sc0 IH] using lt_wf_ind. intros j sj Hj Hp.
          rewrite schain_step in * by auto. destruct j as [|j]; cbn in Hj.
          - inversion Hj; subst. rewrite Hp. reflexivity.
          - destruct (t_parent T sc0) as [p|] eqn:P; [|destruct j; discriminate].
            cbn. f_equal. eapply IH; eauto. eapply wf_parent; eauto. }
        specialize (LAST _ _ _ Hsk P).
        assert (length pre < length (schain_of T (s_scope ben)))%nat by (apply nth_error_Some; congruence).
        lia. }
  rewrite SL in Hse. rewrite Hsk in Hse. inversion Hse; subst sk.
  split; [|split].
  - intros D. split; auto. destruct Hend as [(D' & D1 & D2)|(G & _)]; [auto|congruence].
  - intros G. destruct Hend as [(D' & _)|(_ & g & ge & Hg & Hgs & Hh & Hi)]; [congruence|].
    assert (g = e).
    { eapply (si_uniq T s (sm_inv _ _ _ S)); eauto. rewrite Hgs; auto. }
    subst g. rewrite He in Hg. inversion Hg; subst ge. auto.
  - exists k. rewrite Hsk. auto.
Qed.

(** [lookup] answers with the position of the name, cache or not. *)
Lemma lookup_sim : forall T m s e se r, wf_table T -> sim T m s -> (r < length (t_refs T))%nat ->
  nth_error (senvs s) e = Some se -> t_kind T (s_scope se) <> SWith -> reaches T s e r ->
  exists m', lookup m e r false =
    (m', match pos (rnm T r) (map fst (s_binds se)) with Some b => Found b | None => Missing end) /\
    sim T m' s /\ envs m' = envs m.
Proof.
  intros T m s e se r W S Hr He Kw Rch.
  destruct (sim_env _ _ _ S _ _ He) as (en & Hen & R).
  destruct (sim_ref _ _ _ S r Hr) as (rf & sc & Hrf & Htr & Hn & Hsc & I1 & I2).
  destruct (er_cells _ _ _ _ R) as (cs & Hcs & Hv & Hh & Hb & Hi).
  assert (LEN : length (map fst (s_binds se)) = length cs).
  { rewrite map_length, <- (map_length snd), Hb, map_length. auto. }
  pose proof (sinv_with_nobinds_nodup T s e se W (sm_inv _ _ _ S) He Kw) as ND.
  unfold lookup. rewrite Hen, Hrf, (er_cache _ _ _ _ R). cbn [negb andb]. rewrite Hn.
  destruct (Z.eqb_spec (r_bidx rf) none) as [NB|NB]; cbn [negb].
  - (* hash lookup *)
    rewrite Hh, (assoc_combine_seq _ _ 0 (length cs) LEN). cbn [option_map Nat.add].
    destruct (pos (r_name rf) (map fst (s_binds se))) as [b|] eqn:P; cbn [option_map Nat.add].
    2:{ exists m. auto. }
    destruct (Z.eqb_spec (r_eidx rf) none) as [NE|NE]; cbn [negb].
    + exists m; auto.
    + pose proof (pos_nth _ _ _ P) as PN.
      assert (BL : (b < length cs)%nat) by (rewrite <- LEN; apply nth_error_Some; congruence).
      apply nth_error_Some in BL. destruct (nth_error cs b) as [c|] eqn:Ec; [|congruence].
      rewrite Hcs, nth_error_map, Ec. cbn [option_map].
      eexists. split; [reflexivity|]. split; [|reflexivity].
      eapply sim_set_ref; eauto. { cbn. intros; congruence. }
      cbn. intros _. pose proof (I2 NE) as C.
      destruct (reaches_level T m s e se r rf sc W S He Kw Rch Hsc Hn NE C) as (Z1 & Z2 & k & Z3 & Z4).
      destruct C as (k' & sk & Hk & Hsk & Hless & Hend).
      assert (k' = k) by lia. subst k'. rewrite Z4 in Hsk. inversion Hsk; subst sk.
      exists k, (s_scope se). cbn. split; [auto|]. split; [auto|]. split; [auto|].
      destruct Hend as [(D & D1 & D2)|(G & g & ge & Hg & Hgs & Hgh & _)].
      * left. split; [auto|]. split; [auto|]. intros _. exists b. split; [apply Hi; auto|].
        destruct (si_decl T s (sm_inv _ _ _ S) e se He D) as [more ->].
        apply nth_app_l; auto.
      * right. split; [auto|]. exists g, ge. split; [auto|]. split; [auto|]. split; [auto|].
        intros _. exists b. split; [apply Hi; auto|].
        assert (g = e).
        { eapply (si_uniq T s (sm_inv _ _ _ S)); eauto. rewrite Hgs; auto. }
        subst g. rewrite He in Hg. inversion Hg; subst; auto.
  - (* cached binding *)
    assert (NE : r_eidx rf <> none) by (intros X; apply NB; auto).
    destruct (reaches_level T m s e se r rf sc W S He Kw Rch Hsc Hn NE (I2 NE)) as (Z1 & Z2 & _).
    assert (exists i, r_bidx rf = Z.of_nat i /\ pos (r_name rf) (map fst (s_binds se)) = Some i /\
                      (i < length cs)%nat) as (i & Ei & Ep & El).
    { destruct (t_kind T (s_scope se)) eqn:D; [| |].
      - destruct (Z1 eq_refl) as [Y1 Y2]. destruct (Y2 NB) as (i & E1 & E2). exists i.
        assert (P : In (r_name rf) (map fst (s_binds se))).
        { destruct Rch as (b0 & ben & pre & post & _ & _ & _ & _ & Hin). rewrite <- Hn. eauto. }
        apply pos_in in P as [p P]. destruct (si_decl T s (sm_inv _ _ _ S) e se He D) as [more M].
        pose proof (pos_app _ _ more _ P) as P'. rewrite <- M in P'.
        rewrite (nth_pos _ _ _ (wf_nodup T W _) E2) in P'. inversion P'; subst p.
        split; [auto|]. split; [auto|]. rewrite <- LEN. apply nth_error_Some.
        rewrite (pos_nth _ _ _ P). congruence.
      - congruence.
      - destruct (Z2 eq_refl NB) as (i & E1 & E2). exists i. split; [auto|].
        split; [apply nth_pos; auto|]. rewrite <- LEN. apply nth_error_Some. congruence. }
    rewrite Ei, Nat2Z.id, Hv, Ep.
    rewrite (nth_error_nth' (seq 0 (length cs)) 0) by (rewrite seq_length; auto).
    rewrite seq_nth by auto. exists m. auto.
Qed.

(** ** Writing *)

Lemma shape_upd : forall s e se se', nth_error (senvs s) e = Some se -> shape se' = shape se ->
  map shape (senvs (s_set_env s e se')) = map shape (senvs s).
Proof.
  intros s e se se' H E. cbn. rewrite map_upd. apply upd_id. rewrite nth_error_map, H, E. reflexivity.
Qed.

Definition glob_mono (T : table) (s s' : sst) : Prop :=
  forall e en, nth_error (senvs s) e = Some en -> t_kind T (s_scope en) = SGlobal ->
    exists en', nth_error (senvs s') e = Some en' /\ s_scope en' = s_scope en /\
      (forall n, s_has s en n = true -> s_has s' en' n = true) /\
      exists more, map fst (s_binds en') = map fst (s_binds en) ++ more.

Lemma rinv_mono : forall T s s' l, glob_mono T s s' -> rinv T s l -> rinv T s' l.
Proof.
  intros T s s' l M [L O]. constructor; auto. intros r rf H.
  destruct (O r rf H) as (sc & A & B & C). exists sc. split; [auto|]. split; [auto|].
  intros N. destruct (C N) as (k & sk & H1 & H2 & H3 & H4).
  exists k, sk. split; [auto|]. split; [auto|]. split; [auto|].
  destruct H4 as [H4|(G & e & en & E1 & E2 & E3 & E4)]; [left; auto|right].
  split; [auto|]. rewrite <- E2 in G. destruct (M e en E1 G) as (en' & F1 & F2 & F3 & more & F4).
  exists e, en'. split; [auto|]. split; [congruence|]. split; [auto|].
  intros NB. destruct (E4 NB) as (i & I1 & I2). exists i. split; [auto|].
  rewrite F4. apply nth_app_l; auto.
Qed.

(** The relation only looks at the chain and at the environment's own
    bindings. *)
Lemma erel_chain : forall s s' i en se, chain_of s i = chain_of s' i -> erel s i en se -> erel s' i en se.
Proof.
  intros s s' i en se H [A B C D E F G]. constructor; auto; rewrite <- H; auto.
Qed.

(** Replacing the bindings of one environment. *)
Lemma sim_bind : forall T m s e en se en' se', wf_table T -> sim T m s ->
  nth_error (envs m) e = Some en -> nth_error (senvs s) e = Some se ->
  shape se' = shape se -> erel s e en' se' ->
  (t_kind T (s_scope se) = SDecl -> exists more, t_names T (s_scope se) = map fst (s_binds se') ++ more) ->
  (t_kind T (s_scope se) = SGlobal ->
     NoDup (map fst (s_binds se')) /\ (Z.of_nat (length (s_binds se')) <= 65536)%Z) ->
  (forall n c, In (n, c) (s_binds se') -> s_del c = false) ->
  (t_kind T (s_scope se) = SGlobal -> exists more, map fst (s_binds se') = map fst (s_binds se) ++ more) ->
  sim T (set_env m e en') (s_set_env s e se').
Proof.
  intros T m s e en se en' se' W S Hm Hs Sh R D1 D2 D3 D4.
  assert (SH : map shape (senvs (s_set_env s e se')) = map shape (senvs s)) by (eapply shape_upd; eauto).
  assert (CH : forall i, chain_of (s_set_env s e se') i = chain_of s i) by (apply chain_of_shape; auto).
  inversion Sh as [[K1 K2 K3]].
  assert (GET : forall i x, nth_error (senvs (s_set_env s e se')) i = Some x ->
            (i = e /\ x = se') \/ (i <> e /\ nth_error (senvs s) i = Some x)).
  { intros i x H. cbn in H. destruct (Nat.eq_dec i e) as [->|N].
    - rewrite (nth_upd_same _ _ _ _ _ Hs) in H. inversion H; auto.
    - rewrite nth_upd_other in H by auto. auto. }
  assert (OLD : forall i x, nth_error (senvs s) i = Some x -> exists y,
            nth_error (senvs (s_set_env s e se')) i = Some y /\ shape y = shape x).
  { intros i x H. cbn. destruct (Nat.eq_dec i e) as [->|N].
    - exists se'. rewrite (nth_upd_same _ _ _ _ _ Hs). split; congruence.
    - exists x. rewrite nth_upd_other by auto. auto. }
  destruct S as [I L E Rf O]. destruct I as [I1 I2 I3 I4 I5 I6 I7].
  constructor.
  - constructor.
    + intros i x H. destruct (GET i x H) as [[-> ->]|[N H']].
      * specialize (I1 e se Hs). rewrite K3, K2. destruct (s_outer se) as [o|]; auto.
        destruct I1 as (L1 & oe & L2 & L3). split; auto.
        destruct (OLD o oe L2) as (y & Y1 & Y2). exists y. split; auto.
        inversion Y2. congruence.
      * specialize (I1 i x H'). destruct (s_outer x) as [o|]; auto.
        destruct I1 as (L1 & oe & L2 & L3). split; auto.
        destruct (OLD o oe L2) as (y & Y1 & Y2). exists y. split; auto.
        inversion Y2. congruence.
    + intros i x H. destruct (GET i x H) as [[-> ->]|[N H']]; eauto.
      rewrite K1, K2. eauto.
    + intros i x H. destruct (GET i x H) as [[-> ->]|[N H']]; eauto. rewrite K2. auto.
    + intros i x H. destruct (GET i x H) as [[-> ->]|[N H']]; eauto. rewrite K2. auto.
    + intros i x n c H. destruct (GET i x H) as [[-> ->]|[N H']]; eauto.
    + intros i j a b Ha Hb.
      destruct (GET i a Ha) as [[-> ->]|[N H']]; destruct (GET j b Hb) as [[-> ->]|[N2 H2']]; eauto;
        rewrite ?K2; eauto.
    + intros i x H. rewrite CH. destruct (GET i x H) as [[-> ->]|[N H']]; eauto.
  - cbn. rewrite !upd_len. auto.
  - intros i a b Ha Hb. cbn in Ha. destruct (GET i b Hb) as [[-> ->]|[N H']].
    + rewrite (nth_upd_same _ _ _ _ _ Hm) in Ha. inversion Ha; subst a.
      eapply erel_chain; [|exact R]. symmetry; auto.
    + rewrite nth_upd_other in Ha by auto. eapply erel_chain; [|eapply E; eauto]. symmetry; auto.
  - cbn. eapply rinv_mono; [|exact Rf]. intros i x H G.
    destruct (Nat.eq_dec i e) as [->|N].
    + rewrite Hs in H. inversion H; subst x. exists se'. cbn.
      rewrite (nth_upd_same _ _ _ _ _ Hs). split; [auto|]. split; [auto|]. split; [|auto].
      intros n Hn. unfold s_has in *. rewrite K1.
      assert (KN : known n (s_binds se) = true -> known n (s_binds se') = true).
      { rewrite !known_in. destruct (D4 G) as [more ->]. intros. apply in_app_iff; auto. }
      destruct (s_kind se); auto. rewrite orb_true_iff in *. destruct Hn; auto.
    + exists x. cbn. rewrite nth_upd_other by auto. split; [auto|]. split; [auto|].
      split; [|exists []; rewrite app_nil_r; auto]. intros n. unfold s_has. auto.
  - auto.
Qed.

(** Storing into the binding of a name. *)
Lemma sim_store : forall T m s e en se n b c c', wf_table T -> sim T m s ->
  nth_error (envs m) e = Some en -> nth_error (senvs s) e = Some se ->
  t_kind T (s_scope se) <> SWith ->
  pos n (map fst (s_binds se)) = Some b -> deref m e b = Some c -> c_idx c' = c_idx c ->
  c_del c' = c_del c ->
  sim T (store m e b (Some c')) (s_bind s e se n (erase c')).
Proof.
  intros T m s e en se n b c c' W S Hm Hs Kw P D X1 X2.
  pose proof (sm_env _ _ _ S e en se Hm Hs) as R.
  unfold store, s_bind. rewrite Hm. unfold deref in D. rewrite Hm in D.
  destruct (er_cells _ _ _ _ R) as (cs & Hcs & Hv & Hh & Hb & Hi).
  rewrite Hcs in D. rewrite nth_error_map in D.
  destruct (nth_error cs b) as [c0|] eqn:Ec; cbn in D; [|discriminate]. inversion D; subst c0.
  assert (IN : In n (map fst (s_binds se))) by (eapply nth_error_In, pos_nth; eauto).
  pose proof (assoc_set_keys _ n (erase c') _ IN) as KS.
  pose proof (assoc_set_pos _ n (erase c') _ _ P) as KP.
  apply (sim_bind T m s e en se); auto.
  - destruct R as [R1 R2 R3 R4 R5 R6 R7]. constructor; auto. cbn.
    exists (upd b c' cs). rewrite Hcs, map_upd, upd_len, KS, KP, Hb, map_upd.
    split; [auto|]. split; [auto|]. split; [auto|]. split; [auto|].
    intros j x Hj. destruct (Nat.eq_dec j b) as [->|N].
    + rewrite (nth_upd_same _ _ _ _ _ Ec) in Hj. inversion Hj; subst x. rewrite X1. auto.
    + rewrite nth_upd_other in Hj by auto. auto.
  - intros DD. cbn [s_binds]. rewrite KS. eapply (si_decl T s (sm_inv _ _ _ S)); eauto.
  - intros G. cbn [s_binds]. rewrite KS.
    destruct (si_glob T s (sm_inv _ _ _ S) e se Hs G) as [N1 N2]. split; auto.
    rewrite <- (map_length fst), KS, map_length. auto.
  - cbn [s_binds]. intros n0 c0 Hin.
    apply In_nth_error in Hin as [j Hj].
    assert (J2 : nth_error (map snd (assoc_set n (erase c') (s_binds se))) j = Some c0)
      by (rewrite nth_error_map, Hj; auto).
    rewrite KP in J2. destruct (Nat.eq_dec j b) as [->|N].
    + assert (Q : nth_error (map snd (s_binds se)) b = Some (erase c)) by (rewrite Hb, nth_error_map, Ec; auto).
      rewrite (nth_upd_same _ _ _ _ _ Q) in J2. inversion J2; subst c0. cbn. rewrite X2.
      rewrite nth_error_map in Q. destruct (nth_error (s_binds se) b) as [[n1 c1]|] eqn:E1; cbn in Q; [|discriminate].
      inversion Q; subst c1. apply nth_error_In in E1.
      apply (si_del T s (sm_inv _ _ _ S) e se n1 (erase c)); auto.
    + rewrite nth_upd_other in J2 by auto. rewrite nth_error_map in J2.
      destruct (nth_error (s_binds se) j) as [[n1 c1]|] eqn:E1; cbn in J2; [|discriminate].
      inversion J2; subst c1. apply nth_error_In in E1.
      apply (si_del T s (sm_inv _ _ _ S) e se n1 c0); auto.
  - exists []. cbn [s_binds]. rewrite app_nil_r. auto.
Qed.

(** The binding at the position of a name. *)
Lemma sim_deref : forall T m s e en se n b, sim T m s ->
  nth_error (envs m) e = Some en -> nth_error (senvs s) e = Some se ->
  pos n (map fst (s_binds se)) = Some b ->
  exists c, deref m e b = Some c /\ assoc n (s_binds se) = Some (erase c) /\ c_del c = false.
Proof.
  intros T m s e en se n b S Hm Hs P.
  pose proof (sm_env _ _ _ S e en se Hm Hs) as R.
  destruct (er_cells _ _ _ _ R) as (cs & Hcs & Hv & Hh & Hb & Hi).
  pose proof (pos_nth _ _ _ P) as PN.
  assert (BL : (b < length cs)%nat).
  { rewrite <- (map_length erase), <- Hb, map_length, <- (map_length fst).
    apply nth_error_Some; congruence. }
  apply nth_error_Some in BL. destruct (nth_error cs b) as [c|] eqn:Ec; [|congruence].
  exists c. unfold deref. rewrite Hm, Hcs, nth_error_map, Ec. cbn. split; [auto|].
  rewrite assoc_pos, P, Hb, nth_error_map, Ec. split; [auto|].
  assert (Q : nth_error (map snd (s_binds se)) b = Some (erase c)) by (rewrite Hb, nth_error_map, Ec; auto).
  rewrite nth_error_map in Q. destruct (nth_error (s_binds se) b) as [[n1 c1]|] eqn:E1; cbn in Q; [|discriminate].
  inversion Q; subst c1. apply nth_error_In in E1.
  apply (si_del T s (sm_inv _ _ _ S) e se n1 (erase c)); auto.
Qed.

(** Objects. *)
Lemma sim_obj : forall T m s o l, sim T m s ->
  (forall i en, nth_error (senvs s) i = Some en -> s_kind en = KGlobal o ->
     forall n, known n (sobj s o) = true -> known n l = true) ->
  sim T (set_obj m o l) (s_set_obj s o l).
Proof.
  intros T m s o l S M. destruct S as [I L E Rf O].
  assert (CH : forall i, chain_of (s_set_obj s o l) i = chain_of s i) by reflexivity.
  constructor; cbn; auto.
  - destruct I as [I1 I2 I3 I4 I5 I6 I7]. constructor; auto.
  - intros i en se Hm Hs. destruct (E i en se Hm Hs). constructor; auto.
  - eapply rinv_mono; [|exact Rf]. intros e en H G. exists en. cbn.
    split; [auto|]. split; [auto|]. split; [|exists []; rewrite app_nil_r; auto].
    intros n. unfold s_has. destruct (s_kind en) eqn:K; auto.
    + destruct I as [I1 I2 I3 I4 I5 I6 I7]. specialize (I2 e en H). rewrite K, G in I2. destruct I2.
    + rewrite !orb_true_iff. intros [A|A]; auto. right.
      unfold sobj in *. cbn. destruct (Nat.eq_dec o0 o) as [->|N].
      * assert (Q : (o < length (sobjs s))%nat \/ (length (sobjs s) <= o)%nat) by lia.
        destruct Q as [Q|Q].
        -- rewrite (nth_error_nth (upd o l (sobjs s)) o [] (x := l)); [eapply M; eauto|].
           apply nth_error_Some in Q. destruct (nth_error (sobjs s) o) eqn:E0; [|congruence].
           eapply nth_upd_same; eauto.
        -- rewrite nth_overflow in A by auto. discriminate.
      * assert (E0 : nth o0 (upd o l (sobjs s)) [] = nth o0 (sobjs s) []).
        { pose proof (nth_upd_other _ (sobjs s) o l o0 N) as Q.
          destruct (nth_error (sobjs s) o0) eqn:E1.
          - rewrite (nth_error_nth _ _ _ Q), (nth_error_nth _ _ _ E1). auto.
          - apply nth_error_None in Q, E1. rewrite !nth_overflow by auto. auto. }
        rewrite E0. auto.
  - congruence.
Qed.

Lemma obj_same : forall T m s o, sim T m s -> obj m o = sobj s o.
Proof. intros T m s o S. unfold obj, sobj. rewrite (sm_obj _ _ _ S). auto. Qed.

Lemma rname_same : forall T m s r, sim T m s -> (r < length (t_refs T))%nat -> rname m r = rnm T r.
Proof.
  intros T m s r S H. destruct (sim_ref _ _ _ S r H) as (rf & sc & H1 & _ & H2 & _).
  unfold rname. rewrite H1. auto.
Qed.
