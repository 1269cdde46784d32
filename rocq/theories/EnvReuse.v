(** A tail call of the running function empties the environment of the call
    instead of making a new one.  When nothing else holds the old
    environment, the rest of the run cannot tell. *)
Require Import List ZArith Lia Bool Arith Wf_nat.
Require Import Verif.EnvModel Verif.EnvSpec Verif.EnvProofs Verif.EnvSim.
Import ListNotations.

(** Numbers of environments when the call had made a new one, number [n], in
    place of reusing number [e]. *)
Definition ren (e n i : nat) : nat :=
  if Nat.eqb i e then n else if Nat.ltb i n then i else S i.

Definition ren_op (e n : nat) (o : op) : op :=
  match o with
  | New k sc outer => New k sc (option_map (ren e n) outer)
  | Create i r a b c => Create (ren e n i) r a b c
  | Init i r v => Init (ren e n i) r v
  | Resolve i r => Resolve (ren e n i) r
  | Get i r t => Get (ren e n i) r t
  | Put i r v t => Put (ren e n i) r v t
  | Delete i r => Delete (ren e n i) r
  | Disable i => Disable (ren e n i)
  | Clear i => Clear (ren e n i)
  | ObjPut o k v => ObjPut o k v
  | ObjDel o k => ObjDel o k
  end.

Definition ren_out (e n : nat) (x : out) : out :=
  match x with OEnv o => OEnv (option_map (ren e n) o) | _ => x end.

(** The environments an operation names. *)
Definition names_of (o : op) : list nat :=
  match o with
  | New _ _ (Some i) => [i]
  | New _ _ None | ObjPut _ _ _ | ObjDel _ _ => []
  | Create i _ _ _ _ | Init i _ _ | Resolve i _ | Get i _ _ | Put i _ _ _
  | Delete i _ | Disable i | Clear i => [i]
  end.

(** [L]: the environments of state [s] the rest of the run may use.  None of
    them lies inside [e]. *)
Definition free_of (L : nat -> Prop) (s : sst) (e : nat) : Prop :=
  L e /\ forall i en o, L i -> nth_error (senvs s) i = Some en -> s_outer en = Some o -> L o /\ o <> e.

Definition uses (L : nat -> Prop) (n : nat) (o : op) : Prop :=
  forall i, In i (names_of o) -> L i \/ (n <= i)%nat.

Definition s_after (nm : nat -> name) (s : sst) (l : list op) : sst :=
  fold_left (fun s' o => fst (s_step nm s' o)) l s.

Section Reuse.
  Variables (L : nat -> Prop) (e n : nat).
  Hypothesis Ln : forall i, L i -> (i < n)%nat.
  Hypothesis Le : L e.

  Definition live (i : nat) : Prop := L i \/ (n <= i)%nat.

  Lemma ren_inj : forall i j, ren e n i = ren e n j -> (e < n)%nat -> i = j.
  Proof.
    intros i j. unfold ren.
    destruct (Nat.eqb_spec i e), (Nat.eqb_spec j e), (Nat.ltb_spec i n), (Nat.ltb_spec j n); lia.
  Qed.

  Definition ren_env (en : senv) : senv :=
    mkSE (s_kind en) (s_scope en) (option_map (ren e n) (s_outer en)) (s_binds en).

  Record rel (s1 s2 : sst) : Prop := {
    rl_obj : sobjs s2 = sobjs s1;
    rl_len : length (senvs s2) = S (length (senvs s1));
    rl_big : (n <= length (senvs s1))%nat;
    rl_env : forall i, live i -> nth_error (senvs s2) (ren e n i) = option_map ren_env (nth_error (senvs s1) i);
    rl_out : forall i en o, live i -> nth_error (senvs s1) i = Some en -> s_outer en = Some o -> live o }.

  Lemma rel_has : forall s1 s2 en x, rel s1 s2 -> s_has s2 (ren_env en) x = s_has s1 en x.
  Proof. intros s1 s2 en x R. unfold s_has, sobj. cbn. rewrite (rl_obj _ _ R). auto. Qed.

  Lemma rel_chain : forall s1 s2, rel s1 s2 -> forall f i, live i ->
    chain f (senvs s2) (Some (ren e n i)) = map (ren e n) (chain f (senvs s1) (Some i)).
  Proof.
    intros s1 s2 R. induction f as [|f IH]; intros i Hi; cbn; auto. f_equal.
    rewrite (rl_env _ _ R i Hi). destruct (nth_error (senvs s1) i) as [en|] eqn:E; cbn; auto.
    destruct (s_outer en) as [o|] eqn:O; cbn.
    - apply IH. eapply rl_out; eauto.
    - destruct f; auto.
  Qed.

  Lemma chain_live : forall s1 s2, rel s1 s2 -> forall f i, live i ->
    forall x, In x (chain f (senvs s1) (Some i)) -> live x.
  Proof.
    intros s1 s2 R. induction f as [|f IH]; intros i Hi x Hx; cbn in Hx; [destruct Hx|].
    destruct Hx as [<-|Hx]; auto.
    destruct (nth_error (senvs s1) i) as [en|] eqn:E; [|destruct Hx].
    destruct (s_outer en) as [o|] eqn:O.
    - eapply IH; [|exact Hx]. eapply rl_out; eauto.
    - destruct f; destruct Hx.
  Qed.

  Lemma find_map : forall A B (f : A -> B) (p : B -> bool) (q : A -> bool) l,
    (forall x, In x l -> p (f x) = q x) -> find p (map f l) = option_map f (find q l).
  Proof.
    induction l as [|a l IH]; intros H; cbn; auto.
    rewrite (H a) by (cbn; auto). destruct (q a); auto. apply IH. intros; apply H; cbn; auto.
  Qed.

  Lemma rel_resolve : forall s1 s2 i x, rel s1 s2 -> acyc (senvs s1) -> live i ->
    s_resolve s2 (ren e n i) x = option_map (ren e n) (s_resolve s1 i x).
  Proof.
    intros s1 s2 i x R A Hi. unfold s_resolve. rewrite !s_walk_find.
    rewrite (rel_chain s1 s2 R _ i Hi), (rl_len _ _ R).
    rewrite (find_map _ _ _ _ (hasb s1 x)).
    - f_equal. destruct (nth_error (senvs s1) i) as [en|] eqn:E.
      + assert (i < length (senvs s1))%nat by (apply nth_error_Some; congruence).
        f_equal. apply chain_fuel; auto; lia.
      + cbn. rewrite E. auto.
    - intros y Hy. unfold hasb. rewrite (rl_env _ _ R) by (eapply chain_live; eauto).
      destruct (nth_error (senvs s1) y); cbn; auto. apply rel_has; auto.
  Qed.

  Lemma rel_set : forall s1 s2 i a b, rel s1 s2 -> live i -> nth_error (senvs s1) i = Some a ->
    s_outer b = s_outer a ->
    rel (s_set_env s1 i b) (s_set_env s2 (ren e n i) (ren_env b)).
  Proof.
    intros s1 s2 i a b R Hi Ha O. assert (en := Ln e Le).
    constructor; cbn.
    - apply (rl_obj _ _ R).
    - rewrite !upd_len. apply (rl_len _ _ R).
    - rewrite upd_len. apply (rl_big _ _ R).
    - intros j Hj. rewrite !nth_upd.
      pose proof (rl_env _ _ R j Hj) as Ej. pose proof (rl_env _ _ R i Hi) as Ei. rewrite Ha in Ei. cbn in Ei.
      assert (L2 : (ren e n i < length (senvs s2))%nat) by (apply nth_error_Some; congruence).
      assert (L1 : (i < length (senvs s1))%nat) by (apply nth_error_Some; congruence).
      destruct (Nat.eq_dec j i) as [->|N].
      + rewrite !Nat.eqb_refl. destruct (Nat.ltb_spec (ren e n i) (length (senvs s2))); [|lia].
        destruct (Nat.ltb_spec i (length (senvs s1))); [|lia]. reflexivity.
      + assert (N2 : ren e n j <> ren e n i) by (intros X; apply N; apply ren_inj; auto).
        apply Nat.eqb_neq in N, N2. rewrite N, N2. cbn. auto.
    - intros j en' o Hj. rewrite nth_upd. destruct (Nat.eqb_spec j i) as [->|N].
      + destruct (Nat.ltb_spec i (length (senvs s1))).
        * intros E Ho. injection E as E. rewrite <- E, O in Ho. eapply rl_out; eauto.
        * discriminate.
      + intros; eapply rl_out; eauto.
  Qed.

  Lemma rel_objs : forall s1 s2 o l, rel s1 s2 -> rel (s_set_obj s1 o l) (s_set_obj s2 o l).
  Proof.
    intros s1 s2 o l [A B C D E]. constructor; cbn; auto. rewrite A; auto.
  Qed.

  Definition rsame (x1 x2 : sst * out) : Prop :=
    snd x2 = ren_out e n (snd x1) /\ rel (fst x1) (fst x2).

  Lemma rel_new : forall s1 s2 k sc outer, rel s1 s2 ->
    match outer with Some o => live o /\ (o < length (senvs s1))%nat | None => True end ->
    rel (mkSS (senvs s1 ++ [mkSE k sc outer []]) (sobjs s1))
        (mkSS (senvs s2 ++ [mkSE k sc (option_map (ren e n) outer) []]) (sobjs s2)).
  Proof.
    intros s1 s2 k sc outer R H. assert (en := Ln e Le).
    pose proof (rl_len _ _ R) as LE. pose proof (rl_big _ _ R) as BG.
    constructor; cbn.
    - apply (rl_obj _ _ R).
    - rewrite !app_length, LE. cbn. lia.
    - rewrite app_length. lia.
    - intros i Hi. destruct (Nat.lt_trichotomy i (length (senvs s1))) as [Q|[Q|Q]].
      + assert (ren e n i < length (senvs s2))%nat.
        { unfold ren. destruct (Nat.eqb_spec i e), (Nat.ltb_spec i n); lia. }
        rewrite !nth_error_app1 by auto. apply (rl_env _ _ R); auto.
      + assert (Er : ren e n i = length (senvs s2)).
        { unfold ren. destruct (Nat.eqb_spec i e), (Nat.ltb_spec i n); lia. }
        subst i. rewrite Er, !nth_error_app2 by auto. rewrite !Nat.sub_diag. reflexivity.
      + assert (length (senvs s2) < ren e n i)%nat.
        { unfold ren. destruct (Nat.eqb_spec i e), (Nat.ltb_spec i n); lia. }
        rewrite (proj2 (nth_error_None _ _)) by (rewrite app_length; cbn; lia).
        rewrite (proj2 (nth_error_None _ _)) by (rewrite app_length; cbn; lia). reflexivity.
    - intros i en' o Hi Hn Ho. apply nth_snoc in Hn as [Hn|[-> <-]].
      + eapply rl_out; eauto.
      + cbn in Ho. subst outer. tauto.
  Qed.

  Section Ops.
    Variables (s1 s2 : sst).
    Hypothesis R : rel s1 s2.

    Lemma on_same : forall i x d1 d2 f1 f2, live i ->
      (forall en, nth_error (senvs s1) i = Some en -> rsame (d1 en) (d2 (ren_env en))) ->
      (forall o, rsame (f1 o) (f2 o)) ->
      rsame (s_on s1 i x d1 f1) (s_on s2 (ren e n i) x d2 f2).
    Proof.
      intros i x d1 d2 f1 f2 Hi D F. unfold s_on. rewrite (rl_env _ _ R i Hi).
      destruct (nth_error (senvs s1) i) as [en|] eqn:E; cbn; [|split; auto].
      destruct (s_kind en); auto. destruct (known x (s_binds en)); auto.
    Qed.

    Lemma oset_same : forall o x v t, rsame (s_obj_set s1 o x v t) (s_obj_set s2 o x v t).
    Proof.
      intros. unfold s_obj_set. assert (sobj s2 o = sobj s1 o) as -> by (unfold sobj; rewrite (rl_obj _ _ R); auto).
      destruct (negb (known x (sobj s1 o)) && t); split; cbn [fst snd]; auto. apply rel_objs; auto.
    Qed.

    Lemma oget_same : forall o x t, rsame (s_obj_get s1 o x t) (s_obj_get s2 o x t).
    Proof.
      intros. unfold s_obj_get. assert (sobj s2 o = sobj s1 o) as -> by (unfold sobj; rewrite (rl_obj _ _ R); auto).
      destruct (assoc x (sobj s1 o)); [|destruct t]; split; auto.
    Qed.

    Lemma odel_same : forall o x, rsame (s_obj_delete s1 o x) (s_obj_delete s2 o x).
    Proof.
      intros. unfold s_obj_delete. assert (sobj s2 o = sobj s1 o) as -> by (unfold sobj; rewrite (rl_obj _ _ R); auto).
      split; cbn [fst snd]; auto. apply rel_objs; auto.
    Qed.

    Variables (i : nat) (en : senv).
    Hypothesis Hi : live i.
    Hypothesis He : nth_error (senvs s1) i = Some en.

    Lemma set_same : forall bs r,
      rsame (s_set_env s1 i (mkSE (s_kind en) (s_scope en) (s_outer en) bs), r)
            (s_set_env s2 (ren e n i) (mkSE (s_kind en) (s_scope en) (option_map (ren e n) (s_outer en)) bs), ren_out e n r).
    Proof.
      intros bs r. split; cbn [fst snd]; auto.
      apply (rel_set s1 s2 i en (mkSE (s_kind en) (s_scope en) (s_outer en) bs)); auto.
    Qed.

    Lemma create_same' : forall x a b c,
      rsame (s_decl_create s1 i en x a b c) (s_decl_create s2 (ren e n i) (ren_env en) x a b c).
    Proof.
      intros. unfold s_decl_create. cbn. destruct (known x (s_binds en)); [split; auto|].
      apply (set_same _ OUnit).
    Qed.

    Lemma init_same' : forall x v,
      rsame (s_decl_init s1 i en x v) (s_decl_init s2 (ren e n i) (ren_env en) x v).
    Proof.
      intros. unfold s_decl_init, s_bind. cbn. destruct (assoc x (s_binds en)); [|split; auto].
      destruct (s_init s); [split; auto|]. apply (set_same _ OUnit).
    Qed.

    Lemma put_same' : forall x v t,
      rsame (s_decl_set s1 i en x v t) (s_decl_set s2 (ren e n i) (ren_env en) x v t).
    Proof.
      intros. unfold s_decl_set, s_bind. cbn. destruct (assoc x (s_binds en)).
      - destruct (s_init s); cbn; [|split; auto]. destruct (s_immut s); cbn.
        + destruct (s_strict s || t); split; auto.
        + apply (set_same _ OUnit).
      - destruct t; [split; auto|]. apply (set_same _ OUnit).
    Qed.

    Lemma get_same' : forall x, rsame (s_decl_get s1 en x) (s_decl_get s2 (ren_env en) x).
    Proof.
      intros. unfold s_decl_get. cbn. destruct (assoc x (s_binds en)); [|split; auto].
      destruct (s_init s); split; auto.
    Qed.

    Lemma del_same' : forall x,
      rsame (s_decl_delete s1 i en x) (s_decl_delete s2 (ren e n i) (ren_env en) x).
    Proof.
      intros. unfold s_decl_delete. cbn. destruct (assoc x (s_binds en)); [|split; auto].
      destruct (s_del s); [|split; auto]. apply (set_same _ (OBool true)).
    Qed.
  End Ops.

  Lemma step_rsame : forall nm s1 s2 o, rel s1 s2 -> acyc (senvs s1) -> uses L n o ->
    match o with New _ _ (Some i) => (i < length (senvs s1))%nat | _ => True end ->
    rsame (s_step nm s1 o) (s_step nm s2 (ren_op e n o)).
  Proof.
    intros nm s1 s2 o R A U V.
    assert (H : forall i, In i (names_of o) -> live i) by exact U.
    destruct o; cbn [s_step ren_op] in *; cbn [names_of] in H.
    - split; cbn [fst snd].
      + cbn. f_equal. f_equal. rewrite (rl_len _ _ R). pose proof (rl_big _ _ R). assert (en := Ln e Le).
        unfold ren. destruct (Nat.eqb_spec (length (senvs s1)) e), (Nat.ltb_spec (length (senvs s1)) n); lia.
      + apply rel_new; auto. destruct outer; auto. split; auto. apply H; cbn; auto.
    - assert (Hl : live e0) by (apply H; cbn; auto). unfold s_create. rewrite (rl_env _ _ R _ Hl).
      destruct (nth_error (senvs s1) e0) as [en|] eqn:E; cbn; [|split; auto].
      destruct (s_kind en).
      + apply create_same'; auto.
      + apply create_same'; auto.
      + destruct immut; [split; auto|].
        assert (sobj s2 o = sobj s1 o) as -> by (unfold sobj; rewrite (rl_obj _ _ R); auto).
        split; cbn [fst snd]; auto. apply rel_objs; auto.
      + apply create_same'; auto.
    - apply on_same; auto; [apply H; cbn; auto| |intros; apply oset_same; auto].
      intros; apply init_same'; auto. apply H; cbn; auto.
    - split; cbn [fst snd]; auto. cbn. f_equal. apply rel_resolve; auto. apply H; cbn; auto.
    - apply on_same; auto; [apply H; cbn; auto| |intros; apply oget_same; auto].
      intros; apply get_same'; auto.
    - apply on_same; auto; [apply H; cbn; auto| |intros; apply oset_same; auto].
      intros; apply put_same'; auto. apply H; cbn; auto.
    - apply on_same; auto; [apply H; cbn; auto| |intros; apply odel_same; auto].
      intros; apply del_same'; auto. apply H; cbn; auto.
    - split; auto.
    - assert (Hl : live e0) by (apply H; cbn; auto). rewrite (rl_env _ _ R _ Hl).
      destruct (nth_error (senvs s1) e0) as [en|] eqn:E; cbn; [|split; auto].
      apply (set_same s1 s2 R e0 en Hl E _ OUnit).
    - assert (sobj s2 o = sobj s1 o) as -> by (unfold sobj; rewrite (rl_obj _ _ R); auto).
      split; cbn [fst snd]; auto. apply rel_objs; auto.
    - assert (sobj s2 o = sobj s1 o) as -> by (unfold sobj; rewrite (rl_obj _ _ R); auto).
      split; cbn [fst snd]; auto. apply rel_objs; auto.
  Qed.

  Lemma run_rsame : forall T l m s1 s2, wf_table T -> sim T m s1 -> rel s1 s2 -> all_allowed T s1 l ->
    Forall (uses L n) l ->
    s_run (rnm T) s2 (map (ren_op e n) l) = map (ren_out e n) (s_run (rnm T) s1 l).
  Proof.
    intros T. induction l as [|o l IH]; intros m s1 s2 W S R A U; cbn; auto.
    destruct A as [A1 A2]. inversion U as [|? ? U1 U2]; subst.
    destruct (step_same T m s1 o W S A1) as [_ S'].
    destruct (step_rsame (rnm T) s1 s2 o R) as [E R'].
    - apply (sinv_acyc T). apply (sm_inv _ _ _ S).
    - auto.
    - destruct o; auto. destruct outer as [i|]; auto. destruct A1 as (_ & (en & H & _) & _).
      apply nth_error_Some. congruence.
    - destruct (s_step (rnm T) s1 o) as [s1' x], (s_step (rnm T) s2 (ren_op e n o)) as [s2' y].
      cbn [fst snd] in *. subst. cbn. f_equal. eapply IH; eauto.
  Qed.
End Reuse.

Lemma sim_after : forall T l s m, wf_table T -> sim T m s -> all_allowed T s l ->
  exists m', sim T m' (s_after (rnm T) s l).
Proof.
  intros T. induction l as [|o l IH]; intros s m W S A; cbn; [eauto|].
  destruct A as [A1 A2]. destruct (step_same T m s o W S A1) as [_ S']. eapply IH; eauto.
Qed.

Lemma allowed_app : forall T l l' s, all_allowed T s (l ++ l') ->
  all_allowed T s l /\ all_allowed T (s_after (rnm T) s l) l'.
Proof.
  intros T. induction l as [|o l IH]; intros l' s A; cbn in *; [auto|].
  destruct A as [A1 A2]. destruct (IH _ _ A2). auto.
Qed.

Lemma s_run_app : forall nm l l' s, s_run nm s (l ++ l') = s_run nm s l ++ s_run nm (s_after nm s l) l'.
Proof.
  intros nm. induction l as [|o l IH]; intros l' s; cbn; auto.
  destruct (s_step nm s o) as [s' x] eqn:E. cbn. rewrite IH. auto.
Qed.

Theorem reuse_unseen : forall T os l0 e l en L,
  wf_table T ->
  all_allowed T (s_start os) (l0 ++ Clear e :: l) ->
  let s := s_after (rnm T) (s_start os) l0 in
  let n := length (senvs s) in
  nth_error (senvs s) e = Some en ->
  free_of L s e ->
  (forall i, L i -> (i < n)%nat) ->
  Forall (uses L n) l ->
  exists rest,
    run (start (map snd (t_refs T)) os) (l0 ++ Clear e :: l) =
      s_run (rnm T) (s_start os) l0 ++ OUnit :: rest /\
    s_run (rnm T) (s_start os) (l0 ++ New KFunc (s_scope en) (s_outer en) :: map (ren_op e n) l) =
      s_run (rnm T) (s_start os) l0 ++ OEnv (Some n) :: map (ren_out e n) rest.
Proof.
  intros T os l0 e l en L W A s n He [Le Lo] Ln U.
  destruct (allowed_app T l0 (Clear e :: l) (s_start os) A) as [A0 [A1 A2]]. fold s in A1, A2.
  destruct (sim_after T l0 (s_start os) _ W (sim_start T os) A0) as (m & S). fold s in S.
  rewrite cache_transparent by auto. rewrite !s_run_app. fold s. cbn [s_run]. fold n.
  cbn [s_step] in A2 |- *. rewrite He in A2 |- *. cbn [fst] in A2.
  assert (KF : s_kind en = KFunc) by (destruct A1 as (en' & H1 & H2); congruence).
  eexists. split; [reflexivity|]. f_equal. f_equal.
  destruct (step_same T m s (Clear e) W S A1) as [_ S']. cbn [s_step] in S'. rewrite He in S'. cbn [fst] in S'.
  eapply run_rsame; eauto.
  assert (LT : forall i x, nth_error (senvs s) i = Some x -> (i < n)%nat).
  { intros i x H. apply nth_error_Some. congruence. }
  constructor; cbn.
  - auto.
  - rewrite app_length, upd_len. cbn. lia.
  - rewrite upd_len. auto.
  - intros i [Hi|Hi].
    + rewrite nth_upd. specialize (Ln i Hi). unfold ren. destruct (Nat.eqb_spec i e) as [->|N].
      * unfold n at 1. rewrite nth_last. destruct (Nat.ltb_spec e (length (senvs s))) as [Q|Q]; [|unfold n in *; lia].
        cbn. unfold ren_env. cbn. rewrite KF. f_equal. f_equal.
        destruct (s_outer en) as [o|] eqn:O; cbn; auto. destruct (Lo e en o Le He O) as [Q1 Q2].
        pose proof (sinv_acyc T s (sm_inv _ _ _ S) e en o He O) as Q3. specialize (LT e en He).
        unfold ren. destruct (Nat.eqb_spec o e); [congruence|]. destruct (Nat.ltb_spec o n); [auto|lia].
      * destruct (Nat.ltb_spec i n) as [Q|Q]; [|lia]. cbn. rewrite nth_error_app1 by (unfold n in Q; auto).
        destruct (nth_error (senvs s) i) as [x|] eqn:E; cbn; auto. f_equal. unfold ren_env. destruct x as [k sc ou bs]. cbn.
        f_equal. destruct ou as [o|]; cbn; auto. destruct (Lo i _ o Hi E eq_refl) as [Q1 Q2].
        pose proof (sinv_acyc T s (sm_inv _ _ _ S) i _ o E eq_refl) as Q3.
        unfold ren. destruct (Nat.eqb_spec o e); [congruence|]. destruct (Nat.ltb_spec o n); [auto|lia].
    + specialize (LT e en He). unfold ren. destruct (Nat.eqb_spec i e); [lia|].
      destruct (Nat.ltb_spec i n); [lia|].
      rewrite (proj2 (nth_error_None _ _)) by (rewrite app_length; cbn; unfold n in *; lia).
      rewrite (proj2 (nth_error_None _ _)) by (rewrite upd_len; unfold n in *; lia). reflexivity.
  - intros i x o Hi Hx Ho. destruct Hi as [Hi|Hi].
    + left. rewrite nth_upd in Hx. destruct (Nat.eqb_spec i e) as [->|N].
      * destruct (Nat.ltb_spec e (length (senvs s))); cbn in Hx.
        -- inversion Hx; subst x. cbn in Ho. eapply Lo; eauto.
        -- discriminate.
      * cbn in Hx. eapply Lo; eauto.
    + exfalso. assert (Q : nth_error (upd e (mkSE (s_kind en) (s_scope en) (s_outer en) []) (senvs s)) i <> None) by congruence.
      apply nth_error_Some in Q. rewrite upd_len in Q. unfold n in *. lia.
Qed.
