(** Proofs about the registry of symbols. *)
From Coq Require Import List ZArith Bool Lia.
From Verif Require Import SymRegModel.
Import ListNotations.
Local Open Scope Z_scope.

Record good (s : reg) : Prop := mkGood {
  g_live : NoDup (map fst (live s));
  g_key : forall k e, lookup k (by_key s) = Some e ->
    e_key e = k /\ lookup (e_sym e) (by_sym s) = Some e /\ lookup (e_sym e) (live s) = Some (Some k);
  g_sym : forall a e, lookup a (by_sym s) = Some e ->
    e_sym e = a /\ lookup (e_key e) (by_key s) = Some e }.

Lemma lookup_in : forall A k (t : list (Z * A)) e, lookup k t = Some e -> In (k, e) t.
Proof.
  induction t as [|[k' x] t IH]; cbn; intros e H; [discriminate|].
  destruct (Z.eqb_spec k' k) as [E|E]; [inversion H; subst; now left|right; now apply IH].
Qed.

Lemma lookup_fst : forall A k (t : list (Z * A)) e, lookup k t = Some e -> In k (map fst t).
Proof. intros A k t e H. exact (in_map fst _ _ (lookup_in _ _ _ _ H)). Qed.

Lemma in_use_iff : forall s a, in_use s a = true <-> In a (map fst (live s)).
Proof.
  intros. unfold in_use. rewrite existsb_exists. split.
  - intros (x & I & E). apply Z.eqb_eq in E. now subst.
  - intros I. exists a. split; [exact I|apply Z.eqb_refl].
Qed.

Lemma lookup_filter : forall A (f : Z * A -> bool) k t e,
  lookup k t = Some e -> (forall e', f (k, e') = true) -> lookup k (filter f t) = Some e.
Proof.
  induction t as [|[k' x] t IH]; cbn; intros e H F; [discriminate|].
  destruct (Z.eqb_spec k' k) as [E|E].
  - subst. rewrite F. cbn. now rewrite Z.eqb_refl.
  - destruct (f (k', x)); cbn; [destruct (Z.eqb_spec k' k); [contradiction|]|]; now apply IH.
Qed.

Lemma nodup_filter : forall A (f : Z * A -> bool) t, NoDup (map fst t) -> NoDup (map fst (filter f t)).
Proof.
  induction t as [|p t IH]; cbn; intros N; [constructor|].
  inversion N; subst. destruct (f p); cbn; [|now apply IH].
  constructor; [|now apply IH]. intros I. apply H1. apply in_map_iff in I.
  destruct I as (q & E & I). apply filter_In in I. rewrite <- E. now apply in_map.
Qed.

Lemma good_init : good init.
Proof. constructor; cbn; [constructor|discriminate|discriminate]. Qed.

Lemma lookup_cons_ne : forall A k k' x (t : list (Z * A)), k' <> k -> lookup k ((k', x) :: t) = lookup k t.
Proof. intros. cbn. destruct (Z.eqb_spec k' k); [contradiction|reflexivity]. Qed.

Lemma lookup_cons_eq : forall A k x (t : list (Z * A)), lookup k ((k, x) :: t) = Some x.
Proof. intros. cbn. now rewrite Z.eqb_refl. Qed.

Lemma good_new : forall s a d, good s -> in_use s a = false -> good (symbol_new s a d).
Proof.
  intros s a d G U. assert (NI : ~ In a (map fst (live s))) by (rewrite <- in_use_iff, U; discriminate).
  constructor; cbn [symbol_new live by_key by_sym].
  - cbn. constructor; [exact NI|exact (g_live s G)].
  - intros k e H. destruct (g_key s G k e H) as (A & B & C). repeat split; [exact A|exact B|].
    rewrite lookup_cons_ne; [exact C|]. intros E. apply NI. rewrite E. exact (lookup_fst _ _ _ _ C).
  - exact (g_sym s G).
Qed.

Lemma fresh_sym : forall s a, good s -> in_use s a = false -> lookup a (by_sym s) = None.
Proof.
  intros s a G U. destruct (lookup a (by_sym s)) as [e|] eqn:L; [|reflexivity].
  destruct (g_sym s G a e L) as (A & B). destruct (g_key s G _ e B) as (_ & _ & C).
  rewrite A in C. apply lookup_fst in C. apply in_use_iff in C. congruence.
Qed.

Lemma for_ok : forall s a k, good s -> in_use s a = false ->
  exists s' b, symbol_for s a k = Some (s', b) /\ good s' /\
    lookup k (by_key s') = Some (mkEntry k b) /\ (forall k' e, lookup k' (by_key s) = Some e -> lookup k' (by_key s') = Some e) /\
    (lookup k (by_key s) = None -> b = a) /\ (forall x, x <> a -> lookup x (by_sym s') = lookup x (by_sym s)).
Proof.
  intros s a k G U. unfold symbol_for. destruct (lookup k (by_key s)) as [e|] eqn:L.
  - exists s, (e_sym e). destruct (g_key s G k e L) as (A & _).
    split; [reflexivity|]. split; [exact G|]. split; [|split; [tauto|split; [discriminate|reflexivity]]].
    destruct e as [ek es]. cbn in *. subst. exact L.
  - pose proof (fresh_sym s a G U) as F. pose proof (good_new s a (Some k) G U) as G1.
    cbn [symbol_new by_sym live by_key]. rewrite F. exists (mkReg ((a, Some k) :: live s) ((k, mkEntry k a) :: by_key s) ((a, mkEntry k a) :: by_sym s)), a.
    split; [reflexivity|]. split; [|split; [|split; [|split]]].
    + constructor; cbn [live by_key by_sym].
      * exact (g_live _ G1).
      * intros k' e H. destruct (Z.eq_dec k k') as [E|E].
        -- subst k'. rewrite lookup_cons_eq in H. inversion H; subst e. cbn [e_key e_sym].
           rewrite !lookup_cons_eq. repeat split; reflexivity.
        -- rewrite lookup_cons_ne in H by exact E. destruct (g_key _ G1 k' e H) as (A & B & C).
           cbn [symbol_new by_sym live] in B, C. repeat split; [exact A| |exact C].
           rewrite lookup_cons_ne; [exact B|]. intros X. rewrite <- X, F in B. discriminate.
      * intros x e H. destruct (Z.eq_dec a x) as [E|E].
        -- subst x. rewrite lookup_cons_eq in H. inversion H; subst e. cbn [e_key e_sym].
           rewrite lookup_cons_eq. split; reflexivity.
        -- rewrite lookup_cons_ne in H by exact E. destruct (g_sym s G x e H) as (A & B). split; [exact A|].
           rewrite lookup_cons_ne; [exact B|]. intros X. rewrite <- X, L in B. discriminate.
    + cbn [by_key]. apply lookup_cons_eq.
    + intros k' e H. cbn [by_key]. rewrite lookup_cons_ne; [exact H|]. intros X. rewrite <- X, L in H. discriminate.
    + reflexivity.
    + intros x X. cbn [by_sym]. apply lookup_cons_ne. congruence.
Qed.

Lemma root_in : forall s k e, lookup k (by_key s) = Some e -> In (e_sym e) (roots s).
Proof. intros s k e H. apply lookup_in in H. exact (in_map (fun p => e_sym (snd p)) _ _ H). Qed.

Lemma good_collect : forall s keep, good s -> good (collect s keep).
Proof.
  intros s keep G. constructor; cbn [collect live by_key by_sym].
  - apply nodup_filter. exact (g_live s G).
  - intros k e H. destruct (g_key s G k e H) as (A & B & C). repeat split; [exact A|exact B|].
    apply lookup_filter; [exact C|]. intros e'. cbn [fst]. apply existsb_exists.
    exists (e_sym e). split; [apply in_or_app; left; exact (root_in s k e H)|apply Z.eqb_refl].
  - exact (g_sym s G).
Qed.

Lemma step_ok : forall s x, good s -> exists s', do_step s x = Some s' /\ good s' /\
  (forall k e, lookup k (by_key s) = Some e -> lookup k (by_key s') = Some e).
Proof.
  intros s [a d|a k|keep] G; cbn [do_step].
  - destruct (in_use s a) eqn:U; eexists; (split; [reflexivity|split; [|tauto]]); [exact G|].
    now apply good_new.
  - destruct (in_use s a) eqn:U; [eexists; split; [reflexivity|split; [exact G|tauto]]|].
    destruct (for_ok s a k G U) as (s' & b & E & G' & _ & M & _). rewrite E. exists s'. split; [reflexivity|]. now split.
  - eexists. split; [reflexivity|]. split; [now apply good_collect|tauto].
Qed.

Lemma run_ok : forall l s, good s -> exists s', run s l = Some s' /\ good s' /\
  (forall k e, lookup k (by_key s) = Some e -> lookup k (by_key s') = Some e).
Proof.
  induction l as [|x l IH]; intros s G; cbn [run].
  - exists s. split; [reflexivity|]. split; [exact G|tauto].
  - destruct (step_ok s x G) as (s1 & E & G1 & M1). rewrite E. destruct (IH s1 G1) as (s2 & E2 & G2 & M2).
    exists s2. split; [exact E2|]. split; [exact G2|]. intros k e H. exact (M2 k e (M1 k e H)).
Qed.

Lemma reach_good : forall l s, run init l = Some s -> good s.
Proof. intros l s H. destruct (run_ok l init good_init) as (s' & E & G & _). congruence. Qed.
