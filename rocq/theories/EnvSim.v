(** Every allowed operation keeps the model and the specification together. *)
Require Import List ZArith Lia Bool Wf_nat.
Require Import Verif.EnvModel Verif.EnvSpec Verif.EnvProofs.
Import ListNotations.

Local Opaque u16 none.

Definition same (T : table) (x : st * out) (y : sst * out) : Prop :=
  snd x = snd y /\ sim T (fst x) (fst y).

Section Ops.
  Variable T : table.
  Hypothesis W : wf_table T.
  Variables (m : st) (s : sst) (e r : nat) (se : senv).
  Hypothesis S : sim T m s.
  Hypothesis Hr : (r < length (t_refs T))%nat.
  Hypothesis Hs : nth_error (senvs s) e = Some se.
  Hypothesis Kw : t_kind T (s_scope se) <> SWith.
  Hypothesis Rch : reaches T s e r.

  Lemma found : exists m', lookup m e r false =
      (m', match pos (rnm T r) (map fst (s_binds se)) with Some b => Found b | None => Missing end) /\
      sim T m' s /\ exists en, nth_error (envs m') e = Some en.
  Proof.
    destruct (lookup_sim T m s e se r W S Hr Hs Kw Rch) as (m' & A & B & C).
    exists m'. split; [exact A|]. split; [exact B|].
    destruct (sim_env _ _ _ B _ _ Hs) as (en & E & _). eauto.
  Qed.

  Lemma decl_get_same : same T (decl_get m e r) (s_decl_get s se (rnm T r)).
  Proof.
    destruct found as (m' & L & S' & en & He). unfold decl_get, s_decl_get. rewrite L.
    destruct (pos (rnm T r) (map fst (s_binds se))) as [b|] eqn:P.
    - destruct (sim_deref _ _ _ _ _ _ _ _ S' He Hs P) as (c & D & A & _).
      rewrite D, A. cbn. destruct (c_init c); split; auto.
    - rewrite assoc_pos, P. split; auto.
  Qed.

  Lemma decl_init_same : forall v, same T (decl_init m e r v) (s_decl_init s e se (rnm T r) v).
  Proof.
    intros v. destruct found as (m' & L & S' & en & He). unfold decl_init, s_decl_init. rewrite L.
    destruct (pos (rnm T r) (map fst (s_binds se))) as [b|] eqn:P.
    - destruct (sim_deref _ _ _ _ _ _ _ _ S' He Hs P) as (c & D & A & _).
      rewrite D, A. cbn [erase s_init s_immut s_strict s_del s_val].
      destruct (c_init c); split; cbn [fst snd]; auto.
      eapply (sim_store T m' s e en se (rnm T r) b c); eauto.
    - rewrite assoc_pos, P. split; auto.
  Qed.

  Lemma decl_set_same : forall v t, In (rnm T r) (map fst (s_binds se)) ->
    same T (decl_set m e r v t) (s_decl_set s e se (rnm T r) v t).
  Proof.
    intros v t IN. destruct found as (m' & L & S' & en & He). unfold decl_set, s_decl_set. rewrite L.
    destruct (pos_in _ _ IN) as [b P]. rewrite P.
    destruct (sim_deref _ _ _ _ _ _ _ _ S' He Hs P) as (c & D & A & _).
    rewrite D, A. cbn [erase s_init s_immut s_strict s_del s_val].
    destruct (c_init c); cbn [negb]; [|split; auto].
    destruct (c_immut c) eqn:IM; cbn [negb].
    - destruct (c_strict c || t); split; auto.
    - split; cbn [fst snd]; auto.
      eapply (sim_store T m' s e en se (rnm T r) b c); eauto.
  Qed.

  Lemma decl_has_same : exists m', decl_has m e r = (m', Some (known (rnm T r) (s_binds se))) /\ sim T m' s.
  Proof.
    destruct found as (m' & L & S' & _). exists m'. unfold decl_has. rewrite L, known_pos.
    destruct (pos (rnm T r) (map fst (s_binds se))); auto.
  Qed.
End Ops.

(** Lookups by hash table position do not change anything. *)
Lemma lookup_pe : forall T m s e se r, sim T m s -> (r < length (t_refs T))%nat ->
  nth_error (senvs s) e = Some se ->
  (pos (rnm T r) (map fst (s_binds se)) = None -> lookup m e r true = (m, Missing)).
Proof.
  intros T m s e se r S Hr Hs P.
  destruct (sim_env _ _ _ S _ _ Hs) as (en & Hen & R).
  destruct (sim_ref _ _ _ S r Hr) as (rf & sc & Hrf & Htr & Hn & Hsc & I1 & I2).
  destruct (er_cells _ _ _ _ R) as (cs & Hcs & Hv & Hh & Hb & Hi).
  assert (LEN : length (map fst (s_binds se)) = length cs).
  { rewrite map_length, <- (map_length snd), Hb, map_length. auto. }
  unfold lookup. rewrite Hen, Hrf. cbn [negb]. rewrite andb_false_r. cbn [andb].
  rewrite Hh, (assoc_combine_seq _ _ 0 (length cs) LEN), <- Hn, P. reflexivity.
Qed.

Lemma lookup_pe_found : forall T m s e se r b, wf_table T -> sim T m s -> (r < length (t_refs T))%nat ->
  nth_error (senvs s) e = Some se -> t_kind T (s_scope se) <> SWith -> reaches T s e r ->
  pos (rnm T r) (map fst (s_binds se)) = Some b ->
  exists m', lookup m e r true = (m', Found b) /\ sim T m' s /\ envs m' = envs m.
Proof.
  intros T m s e se r b W S Hr Hs Kw Rch P.
  destruct (sim_env _ _ _ S _ _ Hs) as (en & Hen & R).
  destruct (sim_ref _ _ _ S r Hr) as (rf & sc & Hrf & Htr & Hn & Hsc & I1 & I2).
  destruct (Z.eq_dec (r_bidx rf) none) as [NB|NB].
  - (* as in the plain lookup *)
    destruct (lookup_sim T m s e se r W S Hr Hs Kw Rch) as (m' & A & B & C).
    exists m'. split; [|auto]. rewrite P in A. rewrite <- A. unfold lookup.
    rewrite Hen, Hrf, NB, Z.eqb_refl. cbn [negb]. rewrite !andb_false_r. reflexivity.
  - (* the entry is already cached; it is written again *)
    assert (NE : r_eidx rf <> none) by (intros X; apply NB; auto).
    destruct (er_cells _ _ _ _ R) as (cs & Hcs & Hv & Hh & Hb & Hi).
    assert (LEN : length (map fst (s_binds se)) = length cs).
    { rewrite map_length, <- (map_length snd), Hb, map_length. auto. }
    pose proof (pos_nth _ _ _ P) as PN.
    assert (BL : (b < length cs)%nat) by (rewrite <- LEN; apply nth_error_Some; congruence).
    apply nth_error_Some in BL. destruct (nth_error cs b) as [c|] eqn:Ec; [|congruence].
    unfold lookup. rewrite Hen, Hrf, (er_cache _ _ _ _ R). cbn [negb andb].
    rewrite Hh, (assoc_combine_seq _ _ 0 (length cs) LEN), <- Hn, P. cbn [option_map Nat.add].
    destruct (Z.eqb_spec (r_eidx rf) none) as [NE'|_]; [congruence|]. cbn [negb].
    rewrite Hcs, nth_error_map, Ec. cbn [option_map].
    eexists. split; [reflexivity|]. split; [|reflexivity].
    rewrite Hn. eapply sim_set_ref; eauto. { cbn. intros; congruence. }
    cbn. intros _. pose proof (I2 NE) as C.
    destruct (reaches_level T m s e se r rf sc W S Hs Kw Rch Hsc Hn NE C) as (Z1 & Z2 & k & Z3 & Z4).
    destruct C as (k' & sk & Hk & Hsk & Hless & Hend).
    assert (k' = k) by lia. subst k'. rewrite Z4 in Hsk. inversion Hsk; subst sk.
    exists k, (s_scope se). cbn. split; [auto|]. split; [auto|]. split; [auto|].
    rewrite Hn in PN.
    destruct Hend as [(D & D1 & D2)|(G & g & ge & Hg & Hgs & Hgh & _)].
    + left. split; [auto|]. split; [auto|]. intros _. exists b. split; [apply Hi; auto|].
      destruct (si_decl T s (sm_inv _ _ _ S) e se Hs D) as [more ->].
      apply nth_app_l; auto.
    + right. split; [auto|]. exists g, ge. split; [auto|]. split; [auto|]. split; [auto|].
      intros _. exists b. split; [apply Hi; auto|].
      assert (g = e).
      { eapply (si_uniq T s (sm_inv _ _ _ S)); eauto. rewrite Hgs; auto. }
      subst g. rewrite Hs in Hg. inversion Hg; subst; auto.
Qed.

Lemma u16_id : forall z, (0 <= z < 65536)%Z -> u16 z = z.
Proof. intros. Local Transparent u16. unfold u16. Local Opaque u16. apply Z.mod_small; auto. Qed.

(** Creating the next binding. *)
Lemma decl_create_same : forall T m s e se r i t, wf_table T -> sim T m s -> (r < length (t_refs T))%nat ->
  nth_error (senvs s) e = Some se ->
  match t_kind T (s_scope se) with
  | SDecl => nth_error (t_names T (s_scope se)) (length (s_binds se)) = Some (rnm T r)
  | SGlobal => ~ In (rnm T r) (map fst (s_binds se)) /\ (Z.of_nat (length (s_binds se)) < 65536)%Z
  | SWith => False
  end ->
  same T (decl_create m e r i t false) (s_decl_create s e se (rnm T r) i t false).
Proof.
  intros T m s e se r i t W S Hr Hs Hk.
  destruct (sim_env _ _ _ S _ _ Hs) as (en & Hen & R).
  assert (FRESH : ~ In (rnm T r) (map fst (s_binds se)) /\ (Z.of_nat (length (s_binds se)) < 65536)%Z).
  { destruct (t_kind T (s_scope se)) eqn:K; [|tauto|auto].
    destruct (si_decl T s (sm_inv _ _ _ S) e se Hs K) as [more M].
    pose proof (wf_nodup T W (s_scope se)) as ND. pose proof (wf_small T W (s_scope se)) as SM.
    split.
    - intros IN. apply In_nth_error in IN as [j Hj].
      assert (JL : (j < length (s_binds se))%nat).
      { rewrite <- (map_length fst). apply nth_error_Some. congruence. }
      assert (nth_error (t_names T (s_scope se)) j = Some (rnm T r)) by (rewrite M; apply nth_app_l; auto).
      assert (j = length (s_binds se)).
      { eapply NoDup_nth_error; [exact ND| |congruence]. apply nth_error_Some. congruence. }
      lia.
    - assert (length (s_binds se) < length (t_names T (s_scope se)))%nat by (apply nth_error_Some; congruence).
      lia. }
  destruct FRESH as [FR FL].
  assert (PN : pos (rnm T r) (map fst (s_binds se)) = None).
  { destruct (pos (rnm T r) (map fst (s_binds se))) eqn:P; auto.
    exfalso. apply FR. eapply nth_error_In, pos_nth; eauto. }
  unfold decl_create, s_decl_create. rewrite (lookup_pe T m s e se r S Hr Hs PN).
  rewrite known_pos, PN. split; cbn [fst snd]; auto.
  rewrite (rname_same T m s r S Hr). unfold add_binding. rewrite Hen, (er_cache _ _ _ _ R).
  destruct (er_cells _ _ _ _ R) as (cs & Hcs & Hv & Hh & Hb & Hi).
  assert (LEN : length (s_binds se) = length cs).
  { rewrite <- (map_length snd), Hb, map_length. auto. }
  assert (KW : t_kind T (s_scope se) <> SWith) by (intros X; rewrite X in Hk; auto).
  apply (sim_bind T m s e en se); auto.
  - destruct R as [R1 R2 R3 R4 R5 R6 R7]. constructor; auto.
    exists (cs ++ [mkCell false i t false Undef (u16 (Z.of_nat (length cs)))]).
    cbn [e_cells e_vec e_hash s_binds]. rewrite Hcs, Hv, Hh, !map_app, app_length, map_length, seq_length.
    cbn [map length fst snd]. rewrite Nat.add_1_r, seq_S. cbn [Nat.add].
    split; [auto|]. split; [auto|]. split; [|split; [rewrite Hb; reflexivity|]].
    + assert (CA : forall (a : list name) (b : list nat) x y, length a = length b ->
               combine (a ++ [x]) (b ++ [y]) = combine a b ++ [(x, y)]).
      { induction a as [|z a IH]; intros [|w b] x y H; cbn in *; try discriminate; auto.
        f_equal. apply IH. congruence. }
      rewrite CA; auto. rewrite map_length, seq_length. auto.
    + intros j c Hj. apply nth_snoc in Hj as [Hj|[-> <-]]; [auto|].
      cbn. apply u16_id. lia.
  - intros K. rewrite K in Hk. cbn [s_binds].
    destruct (si_decl T s (sm_inv _ _ _ S) e se Hs K) as [more M].
    rewrite M in Hk. rewrite nth_error_app2 in Hk by (rewrite map_length; auto).
    rewrite map_length, Nat.sub_diag in Hk. destruct more as [|x more]; cbn in Hk; [discriminate|].
    inversion Hk; subst x. exists more. rewrite M, map_app, <- app_assoc. reflexivity.
  - intros G. cbn [s_binds]. rewrite map_app, app_length. cbn.
    destruct (si_glob T s (sm_inv _ _ _ S) e se Hs G) as [N1 N2]. split; [|lia].
    apply NoDup_rev in N1. apply NoDup_rev in N1. rewrite rev_involutive in N1.
    assert (NA : forall (l : list name) x, NoDup l -> ~ In x l -> NoDup (l ++ [x])).
    { induction l as [|y l IH]; intros x N F; cbn; [repeat constructor; auto|].
      inversion N; subst. constructor.
      - rewrite in_app_iff. cbn. cbn in F. intuition. 
      - apply IH; auto. cbn in F; tauto. }
    auto.
  - cbn [s_binds]. intros n c Hin. apply in_app_iff in Hin as [Hin|[Hin|[]]].
    + eapply (si_del T s (sm_inv _ _ _ S)); eauto.
    + inversion Hin; subst. reflexivity.
  - intros _. cbn [s_binds]. rewrite map_app. eauto.
Qed.

(** ** The steps that use one environment *)

Lemma kind_cases : forall T s e se, sinv T s -> nth_error (senvs s) e = Some se ->
  match s_kind se with
  | KDecl | KFunc => t_kind T (s_scope se) = SDecl
  | KObj _ => t_kind T (s_scope se) = SWith
  | KGlobal _ => t_kind T (s_scope se) = SGlobal
  end.
Proof.
  intros T s e se I H. pose proof (si_kind T s I e se H) as K. unfold kind_ok in K.
  destruct (s_kind se), (t_kind T (s_scope se)); auto; destruct K.
Qed.

Lemma reaches_env : forall T s e r, wf_table T -> sinv T s -> reaches T s e r ->
  exists se, nth_error (senvs s) e = Some se.
Proof.
  intros T s e r W I (b & ben & pre & post & Hb & _ & Hc & _).
  pose proof (chain_scopes T s W I b ben Hb) as F. rewrite Hc in F.
  assert (He : nth_error (pre ++ e :: post) (length pre) = Some e)
    by (rewrite nth_error_app2, Nat.sub_diag; auto).
  destruct (Forall2_nth _ _ _ _ _ _ _ F He) as (x & _ & (en & X & _)). eauto.
Qed.

Lemma reaches_in : forall T s e r se, reaches T s e r -> nth_error (senvs s) e = Some se ->
  t_kind T (s_scope se) = SDecl -> In (rnm T r) (map fst (s_binds se)).
Proof. intros T s e r se (b & ben & pre & post & _ & _ & _ & _ & H) He K. eauto. Qed.

Section Steps.
  Variable T : table.
  Hypothesis W : wf_table T.
  Variables (m : st) (s : sst) (e r : nat).
  Hypothesis S : sim T m s.
  Hypothesis Hr : (r < length (t_refs T))%nat.
  Hypothesis Rch : reaches T s e r.

  Lemma obj_get_same : forall o t, same T (obj_get m o r t) (s_obj_get s o (rnm T r) t).
  Proof.
    intros. unfold obj_get, s_obj_get. rewrite (rname_same _ _ _ _ S Hr), (obj_same _ _ _ _ S).
    destruct (assoc (rnm T r) (sobj s o)); [split; auto|]. destruct t; split; auto.
  Qed.

  Lemma obj_set_same : forall o v t, same T (obj_set m o r v t) (s_obj_set s o (rnm T r) v t).
  Proof.
    intros. unfold obj_set, s_obj_set, obj_has, known.
    rewrite (rname_same _ _ _ _ S Hr), (obj_same _ _ _ _ S).
    destruct (negb match assoc (rnm T r) (sobj s o) with Some _ => true | None => false end && t).
    - split; auto.
    - split; cbn [fst snd]; auto. apply sim_obj; auto. intros. apply known_set; auto.
  Qed.

  Lemma do_same : forall se o d f sd sf,
    nth_error (senvs s) e = Some se -> s_kind se = KGlobal o ->
    (known (rnm T r) (s_binds se) = true -> forall m', sim T m' s -> same T (d m') sd) ->
    (forall m', sim T m' s -> same T (f m') sf) ->
    same T (global_env_do m e r d f) (if known (rnm T r) (s_binds se) then sd else sf).
  Proof.
    intros se o d f sd sf Hs K D F. unfold global_env_do.
    assert (Kw : t_kind T (s_scope se) <> SWith).
    { pose proof (kind_cases T s e se (sm_inv _ _ _ S) Hs) as Q. rewrite K in Q. congruence. }
    destruct (decl_has_same T W m s e r se S Hr Hs Kw Rch) as (m' & -> & S').
    destruct (known (rnm T r) (s_binds se)) eqn:E; auto.
  Qed.
End Steps.

Lemma get_same : forall T m s e r t, wf_table T -> sim T m s ->
  allowed T s (Get e r t) -> same T (step m (Get e r t)) (s_step (rnm T) s (Get e r t)).
Proof.
  intros T m s e r t W S [Hr Rch].
  destruct (reaches_env T s e r W (sm_inv _ _ _ S) Rch) as (se & Hs).
  destruct (sim_env _ _ _ S _ _ Hs) as (en & Hen & R).
  pose proof (kind_cases T s e se (sm_inv _ _ _ S) Hs) as K.
  cbn [step s_step]. unfold get_binding, s_on. rewrite Hen, Hs, (er_kind _ _ _ _ R).
  destruct (s_kind se) eqn:Ek.
  - apply decl_get_same; auto. congruence.
  - apply decl_get_same; auto. congruence.
  - apply obj_get_same; auto.
  - eapply do_same; eauto.
    + intros _ m' S'. apply decl_get_same; auto. congruence.
    + intros m' S'. apply obj_get_same; auto.
Qed.

Lemma init_same : forall T m s e r v, wf_table T -> sim T m s ->
  allowed T s (Init e r v) -> same T (step m (Init e r v)) (s_step (rnm T) s (Init e r v)).
Proof.
  intros T m s e r v W S [Hr Rch].
  destruct (reaches_env T s e r W (sm_inv _ _ _ S) Rch) as (se & Hs).
  destruct (sim_env _ _ _ S _ _ Hs) as (en & Hen & R).
  pose proof (kind_cases T s e se (sm_inv _ _ _ S) Hs) as K.
  cbn [step s_step]. unfold init_binding, s_on. rewrite Hen, Hs, (er_kind _ _ _ _ R).
  destruct (s_kind se) eqn:Ek.
  - apply decl_init_same; auto. congruence.
  - apply decl_init_same; auto. congruence.
  - apply obj_set_same; auto.
  - eapply do_same; eauto.
    + intros _ m' S'. apply decl_init_same; auto. congruence.
    + intros m' S'. apply obj_set_same; auto.
Qed.

Lemma put_same : forall T m s e r v t, wf_table T -> sim T m s ->
  allowed T s (Put e r v t) -> same T (step m (Put e r v t)) (s_step (rnm T) s (Put e r v t)).
Proof.
  intros T m s e r v t W S [Hr Rch].
  destruct (reaches_env T s e r W (sm_inv _ _ _ S) Rch) as (se & Hs).
  destruct (sim_env _ _ _ S _ _ Hs) as (en & Hen & R).
  pose proof (kind_cases T s e se (sm_inv _ _ _ S) Hs) as K.
  cbn [step s_step]. unfold set_binding, s_on. rewrite Hen, Hs, (er_kind _ _ _ _ R).
  destruct (s_kind se) eqn:Ek.
  - apply decl_set_same; auto; [congruence|]. eapply reaches_in; eauto.
  - apply decl_set_same; auto; [congruence|]. eapply reaches_in; eauto.
  - apply obj_set_same; auto.
  - eapply do_same; eauto.
    + intros KN m' S'. apply decl_set_same; auto; [congruence|]. apply known_in; auto.
    + intros m' S'. apply obj_set_same; auto.
Qed.

Lemma decl_delete_same : forall T m s e se r, wf_table T -> sim T m s -> (r < length (t_refs T))%nat ->
  nth_error (senvs s) e = Some se -> t_kind T (s_scope se) <> SWith -> reaches T s e r ->
  In (rnm T r) (map fst (s_binds se)) ->
  same T (decl_delete m e r) (s_decl_delete s e se (rnm T r)).
Proof.
  intros T m s e se r W S Hr Hs Kw Rch IN. destruct (pos_in _ _ IN) as [b P].
  destruct (lookup_pe_found T m s e se r b W S Hr Hs Kw Rch P) as (m' & L & S' & _).
  destruct (sim_env _ _ _ S' _ _ Hs) as (en & Hen & R).
  unfold decl_delete, s_decl_delete. rewrite L.
  destruct (sim_deref _ _ _ _ _ _ _ _ S' Hen Hs P) as (c & D & A & X).
  rewrite D, A. cbn [erase s_del]. rewrite X. split; auto.
Qed.

Lemma delete_same : forall T m s e r, wf_table T -> sim T m s ->
  allowed T s (Delete e r) -> same T (step m (Delete e r)) (s_step (rnm T) s (Delete e r)).
Proof.
  intros T m s e r W S (Hr & Rch & G & O).
  destruct (reaches_env T s e r W (sm_inv _ _ _ S) Rch) as (se & Hs).
  destruct (sim_env _ _ _ S _ _ Hs) as (en & Hen & R).
  pose proof (kind_cases T s e se (sm_inv _ _ _ S) Hs) as K.
  cbn [step s_step]. unfold delete_binding, s_on. rewrite Hen, Hs, (er_kind _ _ _ _ R).
  destruct (s_kind se) eqn:Ek.
  - apply decl_delete_same; auto; [congruence|]. eapply reaches_in; eauto.
  - apply decl_delete_same; auto; [congruence|]. eapply reaches_in; eauto.
  - rewrite (rname_same _ _ _ _ S Hr), (obj_same _ _ _ _ S). split; cbn [fst snd]; auto.
    apply sim_obj; auto. intros i ge Hi Kg. exfalso. eapply O; eauto.
  - assert (IN : In (rnm T r) (map fst (s_binds se))) by (eapply G; eauto).
    assert (Kw : t_kind T (s_scope se) <> SWith) by congruence.
    unfold global_env_do. destruct (decl_has_same T W m s e r se S Hr Hs Kw Rch) as (m' & -> & S').
    apply known_in in IN as KN. rewrite KN. apply decl_delete_same; auto.
Qed.

Lemma create_same : forall T m s e r i t d, wf_table T -> sim T m s ->
  allowed T s (Create e r i t d) -> same T (step m (Create e r i t d)) (s_step (rnm T) s (Create e r i t d)).
Proof.
  intros T m s e r i t d W S (-> & Hr & se & Hs & Hk).
  destruct (sim_env _ _ _ S _ _ Hs) as (en & Hen & R).
  pose proof (kind_cases T s e se (sm_inv _ _ _ S) Hs) as K.
  cbn [step s_step]. unfold create_binding, s_create. rewrite Hen, Hs, (er_kind _ _ _ _ R).
  destruct (s_kind se) eqn:Ek; rewrite K in Hk.
  - apply decl_create_same; auto. rewrite K; auto.
  - apply decl_create_same; auto. rewrite K; auto.
  - destruct Hk.
  - destruct Hk as (N & L & RS). unfold global_env_do.
    assert (Kw : t_kind T (s_scope se) <> SWith) by congruence.
    assert (Rch : reaches T s e r).
    { exists e, se, [], match s_outer se with Some o => chain_of s o | None => [] end.
      split; [auto|]. split; [auto|].
      split; [apply chain_step; eauto using sinv_acyc, sm_inv|].
      split; [intros ? ? []|]. intros x Hx D. rewrite Hs in Hx. inversion Hx; subst. congruence. }
    destruct (decl_has_same T W m s e r se S Hr Hs Kw Rch) as (m' & -> & S').
    assert (known (rnm T r) (s_binds se) = false) as ->.
    { destruct (known (rnm T r) (s_binds se)) eqn:KN; auto. apply known_in in KN. tauto. }
    apply decl_create_same; auto. rewrite K; auto.
Qed.

(** ** New environments *)

Lemma chain_of_app : forall s x i, acyc (senvs s) -> (i < length (senvs s))%nat ->
  chain_of (mkSS (senvs s ++ [x]) (sobjs s)) i = chain_of s i.
Proof.
  intros s x i A Hi. unfold chain_of. cbn [senvs]. rewrite app_length. cbn [length].
  rewrite chain_app; auto.
  - apply chain_fuel; auto; lia.
  - intros j en o Hj Ho. specialize (A j en o Hj Ho).
    assert (j < length (senvs s))%nat by (apply nth_error_Some; congruence). lia.
Qed.

Lemma new_same : forall T m s k sc outer, wf_table T -> sim T m s ->
  allowed T s (New k sc outer) ->
  same T (step m (New k sc outer)) (s_step (rnm T) s (New k sc outer)).
Proof.
  intros T m s k sc outer W S (KO & OU & UN).
  cbn [step s_step]. split; cbn [fst snd]; [rewrite (sm_len _ _ _ S); auto|].
  set (x := mkSE k sc outer []). set (s' := mkSS (senvs s ++ [x]) (sobjs s)).
  pose proof (sm_inv _ _ _ S) as I. pose proof (sinv_acyc T s I) as AC.
  assert (GET : forall i y, nth_error (senvs s') i = Some y ->
            nth_error (senvs s) i = Some y \/ (i = length (senvs s) /\ y = x)).
  { intros i y H. apply nth_snoc in H as [H|[-> <-]]; auto. }
  assert (OLD : forall i y, nth_error (senvs s) i = Some y -> nth_error (senvs s') i = Some y).
  { intros i y H. apply nth_app_l; auto. }
  assert (LT : forall i y, nth_error (senvs s) i = Some y -> (i < length (senvs s))%nat).
  { intros i y H. apply nth_error_Some. congruence. }
  assert (CH : forall i y, nth_error (senvs s) i = Some y -> chain_of s' i = chain_of s i).
  { intros i y H. apply chain_of_app; eauto. }
  assert (AC' : acyc (senvs s')).
  { intros i y o H Ho. apply GET in H as [H|[-> ->]]; [eapply AC; eauto|].
    cbn in Ho. subst outer. destruct OU as (en & E & _). eauto. }
  assert (CX : chain_of s' (length (senvs s)) = length (senvs s) ::
            match outer with Some o => chain_of s o | None => [] end).
  { rewrite (chain_step s' _ x) by (auto; apply nth_last). f_equal. cbn.
    destruct outer as [o|]; auto. destruct OU as (en & E & _). eauto. }
  constructor; cbn [envs refs objs].
  - constructor.
    + intros i y H. apply GET in H as [H|[-> ->]].
      * pose proof (si_outer T s I i y H) as Q. destruct (s_outer y) as [o|]; auto.
        destruct Q as (Q1 & oe & Q2 & Q3). eauto.
      * cbn. destruct outer as [o|]; auto. destruct OU as (en & E & P & _).
        split; [eauto|]. exists en; auto.
    + intros i y H. apply GET in H as [H|[-> ->]]; [eapply (si_kind T s I); eauto|auto].
    + intros i y H D. apply GET in H as [H|[-> ->]]; [eapply (si_decl T s I); eauto|].
      cbn. eauto.
    + intros i y H D. apply GET in H as [H|[-> ->]]; [eapply (si_glob T s I); eauto|].
      cbn. split; [constructor|lia].
    + intros i y n c H. apply GET in H as [H|[-> ->]]; [eapply (si_del T s I); eauto|].
      cbn. intros [].
    + intros i j a b Ha Hb E G.
      apply GET in Ha as [Ha|[-> ->]]; apply GET in Hb as [Hb|[-> ->]]; cbn in *; auto.
      * eapply (si_uniq T s I); eauto.
      * exfalso. eapply (UN ltac:(congruence)); eauto.
      * exfalso. eapply (UN ltac:(congruence)); eauto.
    + intros i y H. apply GET in H as [H|[-> ->]].
      * rewrite (CH _ _ H). eapply (si_depth T s I); eauto.
      * rewrite CX. destruct outer as [o|]; cbn [length]; [|lia].
        destruct OU as (en & E & _ & L). lia.
  - cbn. rewrite !app_length, (sm_len _ _ _ S). reflexivity.
  - intros i a b Ha Hb. apply GET in Hb as [Hb|[-> ->]].
    + apply nth_snoc in Ha as [Ha|[-> <-]].
      * eapply erel_chain; [|eapply sm_env; eauto]. symmetry; eauto.
      * apply LT in Hb. rewrite (sm_len _ _ _ S) in Hb. lia.
    + rewrite <- (sm_len _ _ _ S), nth_last in Ha. inversion Ha; subst a.
      constructor; auto; unfold env_new; cbn [e_kind e_scope e_outer e_depth e_cells e_hash e_vec e_stack].
      * rewrite CX. destruct outer as [o|]; [|reflexivity].
        destruct OU as (en & E & _). destruct (sim_env _ _ _ S _ _ E) as (oe & HO & R).
        rewrite HO, (er_depth _ _ _ _ R). cbn [length]. lia.
      * exists []. cbn. split; [auto|]. split; [auto|]. split; [auto|]. split; [auto|].
        intros [|j] c H; discriminate.
  - eapply rinv_mono; [|apply (sm_ref _ _ _ S)]. intros i y H G. exists y.
    split; [auto|]. split; [auto|]. split; [auto|exists []; rewrite app_nil_r; auto].
  - apply (sm_obj _ _ _ S).
Qed.

(** ** The outer stacks *)

Lemma sim_set_env : forall T m s e en se, sim T m s -> nth_error (senvs s) e = Some se ->
  erel s e en se -> sim T (set_env m e en) s.
Proof.
  intros T m s e en se S Hs R. destruct (sim_env _ _ _ S _ _ Hs) as (en0 & He & _).
  destruct S as [I L E Rf O]. constructor; cbn; auto.
  - rewrite upd_len; auto.
  - intros i a b Ha Hb. destruct (Nat.eq_dec i e) as [->|N].
    + rewrite (nth_upd_same _ _ _ _ _ He) in Ha. inversion Ha; subst. rewrite Hs in Hb.
      inversion Hb; subst; auto.
    + rewrite nth_upd_other in Ha by auto. eauto.
Qed.

Lemma build_sim : forall T s self n m o, sim T m s ->
  match o with
  | None => n = O
  | Some i => (exists se, nth_error (senvs s) i = Some se) /\ n = length (chain_of s i)
  end ->
  exists m', build n m self o = Some (m', match o with Some i => chain_of s i | None => [] end) /\
             sim T m' s.
Proof.
  intros T s self. induction n as [|n IH]; intros m o S H; cbn [build].
  - destruct o as [i|]; [|eauto]. destruct H as ((se & Hs) & L).
    rewrite (chain_step s i se) in L by (eauto using sinv_acyc, sm_inv). discriminate.
  - destruct o as [i|]; [|discriminate]. destruct H as ((se & Hs) & L).
    pose proof (sm_inv _ _ _ S) as I.
    rewrite (chain_step s i se) in * by (eauto using sinv_acyc).
    destruct (sim_env _ _ _ S _ _ Hs) as (en & He & R). rewrite He.
    pose proof (er_outer _ _ _ _ R) as EO.
    match goal with |- context [build n ?m1 self ?oo] => destruct (IH m1 oo) as (m' & B & S') end.
    + eapply sim_set_env; eauto. destruct R as [R1 R2 R3 R4 R5 R6 R7]. constructor; auto.
    + rewrite EO. cbn [length] in L. pose proof (si_outer T s I i se Hs) as Q.
      destruct (s_outer se) as [o|]; [|cbn in L; lia].
      destruct Q as (_ & oe & Q & _). split; [eauto|lia].
    + rewrite B, EO. eauto.
Qed.

Lemma build_stack_sim : forall T m s e se, sim T m s -> nth_error (senvs s) e = Some se ->
  exists m', build_stack m e = Some m' /\ sim T m' s /\
    exists en, nth_error (envs m') e = Some en /\
      (e_stack en = Some (tl (chain_of s e)) \/ length (chain_of s e) = 1%nat).
Proof.
  intros T m s e se S Hs. pose proof (sm_inv _ _ _ S) as I.
  destruct (sim_env _ _ _ S _ _ Hs) as (en & He & R). unfold build_stack. rewrite He.
  destruct (er_stack _ _ _ _ R) as [K|K]; rewrite K.
  - pose proof (er_depth _ _ _ _ R) as D. rewrite D.
    assert (LEN : (0 < length (chain_of s e))%nat).
    { rewrite (chain_step s e se) by (eauto using sinv_acyc). cbn; lia. }
    destruct (Z.eqb_spec (Z.of_nat (length (chain_of s e)) - 1) 0) as [Z0|Z0].
    + exists m. split; [auto|]. split; [auto|]. exists en. split; [auto|]. right. lia.
    + replace (Z.to_nat (Z.of_nat (length (chain_of s e)) - 1)) with (length (tl (chain_of s e)))
        by (destruct (chain_of s e); cbn [length tl] in *; lia).
      destruct (build_sim T s e (length (tl (chain_of s e))) m (e_outer en) S) as (m' & B & S').
      { rewrite (er_outer _ _ _ _ R). pose proof (si_outer T s I e se Hs) as Q.
        rewrite (chain_step s e se) by (eauto using sinv_acyc). cbn [tl].
        destruct (s_outer se) as [o|]; auto. destruct Q as (_ & oe & Q & _). eauto. }
      rewrite B. destruct (sim_env _ _ _ S' _ _ Hs) as (en1 & He1 & R1). rewrite He1.
      eexists. split; [reflexivity|].
      assert (EQ : match e_outer en with Some i => chain_of s i | None => [] end = tl (chain_of s e)).
      { rewrite (er_outer _ _ _ _ R), (chain_step s e se) by (eauto using sinv_acyc). reflexivity. }
      split.
      * eapply sim_set_env; eauto. destruct R1 as [Q1 Q2 Q3 Q4 Q5 Q6 Q7]. constructor; auto.
        cbn [e_stack]. right. rewrite EQ. auto.
      * unfold set_env. cbn [envs]. rewrite (nth_upd_same _ _ _ _ _ He1). eexists. split; [reflexivity|].
        left. cbn [e_stack]. rewrite EQ. auto.
  - exists m. split; [auto|]. split; [auto|]. exists en. rewrite K. auto.
Qed.

(** ** Resolving *)

Definition hasb (s : sst) (n : name) (i : nat) : bool :=
  match nth_error (senvs s) i with Some en => s_has s en n | None => false end.

Lemma s_walk_find : forall s n f e, s_walk f s e n = find (hasb s n) (chain f (senvs s) e).
Proof.
  intros s n. induction f as [|f IH]; intros [i|]; cbn; auto.
  unfold hasb at 1. destruct (nth_error (senvs s) i) as [en|]; auto.
  destruct (s_has s en n); auto.
Qed.

Lemma s_resolve_find : forall s e n se, acyc (senvs s) -> nth_error (senvs s) e = Some se ->
  s_resolve s e n = find (hasb s n) (chain_of s e).
Proof.
  intros s e n se A H. unfold s_resolve. rewrite s_walk_find. f_equal.
  assert (e < length (senvs s))%nat by (apply nth_error_Some; congruence).
  apply chain_fuel; auto; lia.
Qed.

Lemma find_at : forall A (f : A -> bool) l k x, nth_error l k = Some x -> f x = true ->
  (forall j y, (j < k)%nat -> nth_error l j = Some y -> f y = false) -> find f l = Some x.
Proof.
  induction l as [|a l IH]; intros [|k] x H1 H2 H3; cbn in *; try discriminate.
  - inversion H1; subst. rewrite H2. auto.
  - rewrite (H3 0%nat a) by (auto; lia). apply (IH k); auto.
    intros j y L Hj. apply (H3 (S j)); [lia|auto].
Qed.

Lemma decl_has_iff : forall T s i en n, sinv T s -> nth_error (senvs s) i = Some en ->
  t_kind T (s_scope en) = SDecl -> s_has s en n = known n (s_binds en).
Proof.
  intros T s i en n I H K. pose proof (si_kind T s I i en H) as Q. rewrite K in Q.
  unfold s_has. destruct (s_kind en); cbn in Q; auto; destruct Q.
Qed.

(** A filled cache leads to the environment the walk would find. *)
Lemma cached_find : forall T m s e se r rf k sc, wf_table T -> sim T m s ->
  nth_error (senvs s) e = Some se -> s_scope se = sc ->
  cached T s sc rf -> r_eidx rf = Z.of_nat k -> r_name rf = rnm T r ->
  (forall i, In i (chain_of s e) -> complete T s i) ->
  exists i, nth_error (chain_of s e) k = Some i /\
            find (hasb s (rnm T r)) (chain_of s e) = Some i.
Proof.
  intros T m s e se r rf k sc W S Hs Hsc (k' & sk & Hk & Hsk & Hless & Hend) Ek En CP.
  assert (k' = k) by lia. subst k'. subst sc. pose proof (sm_inv _ _ _ S) as I.
  pose proof (chain_scopes T s W I e se Hs) as F.
  destruct (Forall2_nth' _ _ _ _ _ _ _ F Hsk) as (i & Hi & (ie & Hie & Sie)).
  exists i. split; [auto|]. apply (find_at _ _ _ k); auto.
  - unfold hasb. rewrite Hie. rewrite <- En.
    destruct Hend as [(D & IN & _)|(G & g & ge & Hg & Hgs & Hgh & _)].
    + rewrite <- Sie in D. rewrite (decl_has_iff T s i ie _ I Hie D). apply known_in.
      rewrite (CP i (nth_error_In _ _ Hi) ie Hie D). congruence.
    + assert (g = i). { eapply (si_uniq T s I); eauto; congruence. }
      subst g. congruence.
  - intros j y L Hj. destruct (Forall2_nth _ _ _ _ _ _ _ F Hj) as (sj & Hsj & (ye & Hye & Sye)).
    destruct (Hless j sj L Hsj) as [D NI]. unfold hasb. rewrite Hye. rewrite <- En.
    rewrite <- Sye in D. rewrite (decl_has_iff T s y ye _ I Hye D).
    destruct (known (r_name rf) (s_binds ye)) eqn:KN; auto. exfalso. apply NI.
    apply known_in in KN. destruct (si_decl T s I y ye Hye D) as [more M].
    rewrite <- Sye, M. apply in_app_iff; auto.
Qed.

(** Without a cached index a lookup only reads. *)
Lemma has_plain : forall T m s i se r rf, wf_table T -> sim T m s -> (r < length (t_refs T))%nat ->
  nth_error (senvs s) i = Some se -> nth_error (refs m) r = Some rf -> r_eidx rf = none ->
  has_binding m i r = (m, Some (s_has s se (rnm T r))).
Proof.
  intros T m s i se r rf W S Hr Hs Hrf NE.
  destruct (sim_env _ _ _ S _ _ Hs) as (en & He & R).
  destruct (sim_ref _ _ _ S r Hr) as (rf' & sc & Hrf' & Htr & Hn & Hsc & I1 & I2).
  rewrite Hrf in Hrf'. inversion Hrf'; subst rf'.
  destruct (er_cells _ _ _ _ R) as (cs & Hcs & Hv & Hh & Hb & Hi).
  assert (LEN : length (map fst (s_binds se)) = length cs).
  { rewrite map_length, <- (map_length snd), Hb, map_length. auto. }
  assert (DH : decl_has m i r = (m, Some (known (rnm T r) (s_binds se)))).
  { unfold decl_has, lookup. rewrite He, Hrf, (I1 NE), NE, Z.eqb_refl. cbn [negb].
    rewrite !andb_false_r. rewrite Hh, (assoc_combine_seq _ _ 0 (length cs) LEN), <- Hn, known_pos.
    destruct (pos (rnm T r) (map fst (s_binds se))); auto. }
  unfold has_binding, s_has. rewrite He, (er_kind _ _ _ _ R).
  assert (OH : forall o, obj_has m o r = known (rnm T r) (sobj s o)).
  { intros o. unfold obj_has, known. rewrite (rname_same _ _ _ _ S Hr), (obj_same _ _ _ _ S). auto. }
  destruct (s_kind se); rewrite ?DH, ?OH; auto.
  destruct (known (rnm T r) (s_binds se)); cbn; auto.
Qed.

Definition is_obj (k : kind) : bool := match k with KObj _ => true | _ => false end.

Definition passed (s : sst) (n : name) (i x : nat) : Prop :=
  exists pre post, chain_of s i = pre ++ x :: post /\
    (forall j je, In j pre -> nth_error (senvs s) j = Some je ->
        is_obj (s_kind je) = false /\ s_has s je n = false) /\
    (exists xe, nth_error (senvs s) x = Some xe /\ is_obj (s_kind xe) = false /\ s_has s xe n = true).

Lemma walk_sim : forall T m s r rf, wf_table T -> sim T m s -> (r < length (t_refs T))%nat ->
  nth_error (refs m) r = Some rf -> r_eidx rf = none ->
  forall f i need, (Datatypes.S i < f)%nat -> (exists se, nth_error (senvs s) i = Some se) ->
  exists need', walk f m (Some i) r need = (m, Some (find (hasb s (rnm T r)) (chain_of s i), need')) /\
    (need' = true -> need = true /\
       forall x, find (hasb s (rnm T r)) (chain_of s i) = Some x -> passed s (rnm T r) i x).
Proof.
  intros T m s r rf W S Hr Hrf NE. pose proof (sm_inv _ _ _ S) as I.
  induction f as [|f IH]; intros i need Hf (se & Hs); [lia|]. cbn [walk].
  destruct (sim_env _ _ _ S _ _ Hs) as (en & He & R). rewrite He.
  rewrite (has_plain T m s i se r rf W S Hr Hs Hrf NE), (er_kind _ _ _ _ R), (er_outer _ _ _ _ R).
  rewrite (chain_step s i se) by (eauto using sinv_acyc). cbn [find].
  unfold hasb at 1 3. rewrite Hs.
  destruct (s_has s se (rnm T r)) eqn:HH.
  - eexists. split; [reflexivity|]. intros N.
    assert (KO : is_obj (s_kind se) = false) by (destruct (s_kind se); auto; discriminate).
    split; [destruct (s_kind se); auto; discriminate|].
    intros x E. inversion E; subst x. exists [], (tl (chain_of s i)).
    split; [rewrite (chain_step s i se) by (eauto using sinv_acyc); auto|].
    split; [intros ? ? []|]. exists se; auto.
  - pose proof (si_outer T s I i se Hs) as Q. destruct (s_outer se) as [o|] eqn:EO.
    + destruct Q as (L & oe & Ho & _).
      destruct (IH o (match s_kind se with KObj _ => false | _ => need end)) as (need' & -> & Hn);
        [lia|eauto|].
      exists need'. split; [reflexivity|]. intros N. destruct (Hn N) as [N1 N2].
      assert (KO : is_obj (s_kind se) = false) by (destruct (s_kind se); auto; discriminate).
      split; [destruct (s_kind se); auto; discriminate|].
      intros x E. destruct (N2 x E) as (pre & post & C & P1 & P2).
      exists (i :: pre), post.
      split; [rewrite (chain_step s i se) by (eauto using sinv_acyc); rewrite EO, C; auto|].
      split; [|auto]. intros j je [<-|Hj] Hje; [|eauto].
      rewrite Hs in Hje. inversion Hje; subst; auto.
    + destruct f as [|f]; [lia|]. cbn [walk].
      eexists. split; [reflexivity|]. intros N. split; [destruct (s_kind se); auto; discriminate|].
      intros x E. discriminate.
Qed.

(** The environments outside one of a chain. *)
Lemma chain_suffix : forall T s, sinv T s -> forall pre i x post, chain_of s i = pre ++ x :: post ->
  (exists ie, nth_error (senvs s) i = Some ie) -> chain_of s x = x :: post.
Proof.
  intros T s I. induction pre as [|a pre IH]; intros i x post H (ie & Hi).
  - rewrite (chain_step s i ie) in H by (eauto using sinv_acyc). inversion H; subst.
    apply chain_step; eauto using sinv_acyc.
  - rewrite (chain_step s i ie) in H by (eauto using sinv_acyc). inversion H as [[A B]].
    pose proof (si_outer T s I i ie Hi) as Q. destruct (s_outer ie) as [o|].
    + destruct Q as (_ & oe & Q & _). eapply IH; eauto.
    + destruct pre; discriminate.
Qed.

(** Only the last environment of a chain is a global one. *)
Lemma global_last : forall T s, wf_table T -> sinv T s -> forall pre i x post je j,
  chain_of s i = pre ++ x :: post -> (exists ie, nth_error (senvs s) i = Some ie) ->
  In j pre -> nth_error (senvs s) j = Some je -> t_kind T (s_scope je) <> SGlobal.
Proof.
  intros T s W I pre i x post je j H Hi Hin Hj G.
  apply in_split in Hin as (a & b & ->). rewrite <- app_assoc in H. cbn in H.
  pose proof (chain_suffix T s I _ _ _ _ H Hi) as C.
  rewrite (chain_step s j je) in C by (eauto using sinv_acyc).
  pose proof (si_outer T s I j je Hj) as Q. rewrite (wf_global T W _ G) in Q.
  destruct (s_outer je) as [o|].
  - destruct Q as (_ & oe & _ & Q). discriminate.
  - destruct b; discriminate.
Qed.

Lemma fill_cached : forall T m s e se x r rf, wf_table T -> sim T m s ->
  nth_error (senvs s) e = Some se -> rnm T r = r_name rf -> r_bidx rf = none ->
  (forall i, In i (chain_of s e) -> complete T s i) ->
  passed s (rnm T r) e x ->
  exists k, nth_error (chain_of s e) k = Some x /\
    length (chain_of s e) = (k + length (chain_of s x))%nat /\
    cached T s (s_scope se) (mkRef (r_name rf) (Z.of_nat k) (r_bidx rf)).
Proof.
  intros T m s e se x r rf W S Hs Hn NB CP (pre & post & C & P1 & xe & X1 & X2 & X3).
  pose proof (sm_inv _ _ _ S) as I.
  assert (NX : nth_error (chain_of s e) (length pre) = Some x).
  { rewrite C, nth_error_app2, Nat.sub_diag; auto. }
  exists (length pre). split; [auto|]. split.
  { rewrite (chain_suffix T s I _ _ _ _ C) by eauto. rewrite C, app_length. auto. }
  pose proof (chain_scopes T s W I e se Hs) as F.
  destruct (Forall2_nth _ _ _ _ _ _ _ F NX) as (sk & Hsk & (xe' & X1' & Sx)).
  rewrite X1 in X1'. inversion X1'; subst xe'.
  exists (length pre), sk. cbn [r_eidx r_name r_bidx]. split; [auto|]. split; [auto|]. split.
  - intros j sj L Hsj. destruct (Forall2_nth' _ _ _ _ _ _ _ F Hsj) as (y & Hy & (ye & Hye & Sy)).
    assert (INp : In y pre) by (rewrite C in Hy; eapply chain_nth_pre; eauto).
    destruct (P1 y ye INp Hye) as [Q1 Q2].
    assert (D : t_kind T (s_scope ye) = SDecl).
    { pose proof (si_kind T s I y ye Hye) as Q.
      pose proof (global_last T s W I _ _ _ _ _ _ C (ex_intro _ se Hs) INp Hye) as G.
      destruct (s_kind ye), (t_kind T (s_scope ye)); cbn in *; auto; try congruence; destruct Q. }
    split; [congruence|]. rewrite <- Sy, <- (CP y (nth_error_In _ _ Hy) ye Hye D), <- Hn.
    rewrite (decl_has_iff T s y ye _ I Hye D) in Q2. intros X. apply known_in in X. congruence.
  - pose proof (si_kind T s I x xe X1) as Q.
    destruct (t_kind T sk) eqn:K.
    + left. split; [auto|]. rewrite <- Sx in K. split; [|intros; congruence].
      rewrite <- Sx, <- (CP x (nth_error_In _ _ NX) xe X1 K), <- Hn. apply known_in.
      rewrite <- (decl_has_iff T s x xe _ I X1 K). auto.
    + rewrite <- Sx in K. rewrite K in Q. destruct (s_kind xe); cbn in *; try destruct Q. discriminate.
    + right. split; [auto|]. exists x, xe. split; [auto|]. split; [auto|].
      split; [congruence|]. intros; congruence.
Qed.

Lemma none_val : none = 65535%Z.
Proof. Local Transparent none. reflexivity. Qed.
Local Opaque none.

Lemma resolve_same : forall T m s e r, wf_table T -> sim T m s ->
  allowed T s (Resolve e r) -> same T (step m (Resolve e r)) (s_step (rnm T) s (Resolve e r)).
Proof.
  intros T m s e r W S (Hr & (se & Hs & RS) & CP). pose proof (sm_inv _ _ _ S) as I.
  destruct (sim_env _ _ _ S _ _ Hs) as (en & He & R).
  destruct (sim_ref _ _ _ S r Hr) as (rf & sc & Hrf & Htr & Hn & Hsc & I1 & I2).
  assert (Esc : sc = s_scope se) by congruence. subst sc.
  cbn [step s_step]. rewrite (s_resolve_find s e (rnm T r) se) by (eauto using sinv_acyc).
  unfold resolve. rewrite He, Hrf, (er_cache _ _ _ _ R), andb_true_r.
  destruct (Z.eqb_spec (r_eidx rf) none) as [NE|NE]; cbn [negb].
  - assert (LT : (e < length (senvs s))%nat) by (apply nth_error_Some; congruence).
    destruct (walk_sim T m s r rf W S Hr Hrf NE (Datatypes.S (Datatypes.S (length (envs m)))) e true)
      as (need' & -> & HN); [rewrite (sm_len _ _ _ S); lia|eauto|].
    destruct (find (hasb s (rnm T r)) (chain_of s e)) as [x|] eqn:FX; [|split; auto].
    destruct need'; [|split; auto].
    destruct (HN eq_refl) as [_ HP]. specialize (HP x eq_refl).
    destruct (fill_cached T m s e se x r rf W S Hs Hn (I1 NE) CP HP) as (k & K1 & K2 & K3).
    destruct HP as (pre & post & C & P1 & xe & X1 & X2 & X3).
    destruct (sim_env _ _ _ S _ _ X1) as (xm & Hx & Rx).
    rewrite He, Hx, Hrf, (er_depth _ _ _ _ R), (er_depth _ _ _ _ Rx).
    replace (Z.of_nat (length (chain_of s e)) - 1 - (Z.of_nat (length (chain_of s x)) - 1))%Z
      with (Z.of_nat k) by lia.
    assert (KL : (k < length (chain_of s e))%nat) by (apply nth_error_Some; congruence).
    pose proof (si_depth T s I e se Hs) as DL.
    rewrite u16_id by lia.
    match goal with |- context [build_stack ?m2 e] => assert (S2 : sim T m2 s) end.
    { eapply sim_set_ref; eauto. }
    destruct (build_stack_sim T _ s e se S2 Hs) as (m3 & -> & S3 & _). split; auto.
  - pose proof (I2 NE) as CA. destruct CA as (k & sk & Hk & CA').
    destruct (cached_find T m s e se r rf k (s_scope se) W S Hs eq_refl (I2 NE) Hk (eq_sym Hn) CP)
      as (i & Hi & ->).
    destruct (Z.eqb_spec (r_eidx rf) 0) as [Z0|Z0].
    + split; [|auto]. cbn [snd]. assert (k = 0%nat) by lia. subst k.
      rewrite (chain_step s e se) in Hi by (eauto using sinv_acyc). cbn in Hi. congruence.
    + destruct (build_stack_sim T m s e se S Hs) as (m1 & -> & S1 & en1 & He1 & St1).
      rewrite He1. destruct k as [|k]; [lia|].
      assert (TL : nth_error (tl (chain_of s e)) k = Some i).
      { rewrite (chain_step s e se) in * by (eauto using sinv_acyc). exact Hi. }
      destruct St1 as [St1|L1].
      * rewrite St1. replace (Z.to_nat (r_eidx rf - 1)) with k by lia. rewrite TL. split; auto.
      * exfalso. rewrite (chain_step s e se) in * by (eauto using sinv_acyc).
        cbn [length tl] in *. injection L1 as L1. apply length_zero_iff_nil in L1. rewrite L1 in TL.
        destruct k; discriminate.
Qed.

(** ** Clearing a function environment *)

Lemma sim_backs : forall T m s f, sim T m s ->
  sim T (mkSt (map (fun x => mkEnv (e_kind x) (e_scope x) (e_outer x) (e_depth x)
                               (e_cells x) (e_hash x) (e_vec x) (e_cache x) (e_stack x) (f x)) (envs m))
              (refs m) (objs m)) s.
Proof.
  intros T m s f [I L E Rf O]. constructor; cbn [envs refs objs]; auto.
  - rewrite map_length; auto.
  - intros i a b Ha Hb. rewrite nth_error_map in Ha.
    destruct (nth_error (envs m) i) as [x|] eqn:Hx; [|discriminate]. cbn in Ha. inversion Ha; subst a.
    destruct (E i x b Hx Hb). constructor; auto.
Qed.

Lemma clear_same : forall T m s e, wf_table T -> sim T m s -> allowed T s (Clear e) ->
  same T (step m (Clear e)) (s_step (rnm T) s (Clear e)).
Proof.
  intros T m s e W S (se & Hs & K). pose proof (sm_inv _ _ _ S) as I.
  destruct (sim_env _ _ _ S _ _ Hs) as (en & He & R).
  cbn [step s_step]. unfold clear. rewrite Hs, He, (er_kind _ _ _ _ R), K.
  split; [reflexivity|]. cbn [fst].
  pose proof (sim_backs T m s (fun x => filter (fun b => negb (Nat.eqb b e)) (e_backs x)) S) as S1.
  match type of S1 with sim _ ?x _ => set (m1 := x) in * end.
  destruct (sim_env _ _ _ S1 _ _ Hs) as (en1 & He1 & R1).
  assert (KD : t_kind T (s_scope se) = SDecl).
  { pose proof (kind_cases T s e se I Hs) as Q. rewrite K in Q. auto. }
  eapply (sim_bind T m1 s e en1 se); auto.
  - unfold shape. cbn. rewrite K. auto.
  - constructor; auto; unfold env_new; cbn [e_kind e_scope e_outer e_depth e_cells e_hash e_vec e_stack].
    + apply (er_scope _ _ _ _ R).
    + apply (er_outer _ _ _ _ R).
    + rewrite (er_outer _ _ _ _ R), (chain_step s e se) by (eauto using sinv_acyc).
      pose proof (si_outer T s I e se Hs) as Q.
      destruct (s_outer se) as [o|]; [|reflexivity]. destruct Q as (_ & oe & Ho & _).
      destruct (sim_env _ _ _ S1 _ _ Ho) as (om & Hom & Rom). rewrite Hom, (er_depth _ _ _ _ Rom).
      cbn [length]. lia.
    + exists []. cbn. split; [auto|]. split; [auto|]. split; [auto|]. split; [auto|].
      intros [|j] c H; discriminate.
  - intros _. cbn. eauto.
  - congruence.
  - cbn. intros n c [].
  - congruence.
Qed.

(** ** All operations *)

Lemma step_same : forall T m s o, wf_table T -> sim T m s -> allowed T s o ->
  same T (step m o) (s_step (rnm T) s o).
Proof.
  intros T m s o W S A. destruct o.
  - apply new_same; auto.
  - apply create_same; auto.
  - apply init_same; auto.
  - apply resolve_same; auto.
  - apply get_same; auto.
  - apply put_same; auto.
  - apply delete_same; auto.
  - destruct A.
  - apply clear_same; auto.
  - cbn. split; cbn [fst snd]; auto. rewrite (obj_same _ _ _ _ S). apply sim_obj; auto.
    intros. apply known_set; auto.
  - cbn. split; cbn [fst snd]; auto. rewrite (obj_same _ _ _ _ S). apply sim_obj; auto.
    intros i en Hi K. exfalso. eapply A; eauto.
Qed.

Lemma run_same : forall T l m s, wf_table T -> sim T m s -> all_allowed T s l ->
  run m l = s_run (rnm T) s l.
Proof.
  intros T. induction l as [|o l IH]; intros m s W S A; cbn; auto.
  destruct A as [A1 A2]. destruct (step_same T m s o W S A1) as [E S'].
  destruct (step m o) as [m' x], (s_step (rnm T) s o) as [s' y]. cbn [fst snd] in *.
  subst. f_equal. apply IH; auto.
Qed.

Lemma sim_start : forall T os, sim T (start (map snd (t_refs T)) os) (s_start os).
Proof.
  intros T os. constructor; cbn; auto.
  - constructor; cbn; intros; exfalso; destruct i; cbn in *; discriminate.
  - intros i en se H. destruct i; discriminate.
  - constructor; [rewrite !map_length; auto|]. intros r rf H.
    rewrite !nth_error_map in H. destruct (nth_error (t_refs T) r) as [[sc n]|]; [|discriminate].
    cbn in H. inversion H; subst. cbn. exists sc. split; [auto|]. split; [auto|]. intros; congruence.
Qed.

Theorem cache_transparent : forall T os l, wf_table T -> all_allowed T (s_start os) l ->
  run (start (map snd (t_refs T)) os) l = s_run (rnm T) (s_start os) l.
Proof. intros. apply run_same; auto. apply sim_start. Qed.
