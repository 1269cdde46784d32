From Coq Require Import List Bool Arith ZArith Lia Sorted.
Import ListNotations.
From Verif Require Import RbtModel RbtSpec.

(** ** Occurrences of addresses *)
Definition one (a x : nat) : nat := if a =? x then 1 else 0.
Lemma one_refl : forall a, one a a = 1. Proof. intro a. unfold one. rewrite Nat.eqb_refl. reflexivity. Qed.
Lemma one_ne : forall a x, a <> x -> one a x = 0. Proof. intros a x N. unfold one. rewrite (proj2 (Nat.eqb_neq a x) N). reflexivity. Qed.
Global Opaque one.
Fixpoint occ (x : nat) (t : tree) : nat := match t with E => 0 | T _ l a r => occ x l + one a x + occ x r end.
Inductive frame := FL (c : bool) (x : nat) (r : tree) | FR (c : bool) (x : nat) (l : tree).
Definition ctx := list frame.
Fixpoint cocc (x : nat) (k : ctx) : nat :=
  match k with [] => 0 | FL _ a t :: k => one a x + occ x t + cocc x k | FR _ a t :: k => one a x + occ x t + cocc x k end.
Definition par (k : ctx) : nat := match k with [] => 0 | FL _ x _ :: _ => x | FR _ x _ :: _ => x end.
Fixpoint plug (k : ctx) (t : tree) : tree :=
  match k with [] => t | FL c x r :: k => plug k (T c t x r) | FR c x l :: k => plug k (T c l x t) end.
Fixpoint rep_ctx (m : memory) (R : nat) (k : ctx) (a : nat) : Prop :=
  match k with
  | [] => R = a
  | FL c x r :: k => m x = Some {| lf := a; rg := ra r; pa := par k; bl := c |} /\ rep m x r /\ rep_ctx m R k x
  | FR c x l :: k => m x = Some {| lf := ra l; rg := a; pa := par k; bl := c |} /\ rep m x l /\ rep_ctx m R k x
  end.
Record good (h : heap) (k : ctx) (t : tree) : Prop := {
  g_ctx : rep_ctx (mem h) (root h) k (ra t);
  g_rep : rep (mem h) (par k) t;
  g_nd : forall x, occ x t + cocc x k <= 1;
  g_nz : occ 0 t + cocc 0 k = 0
}.

Lemma occ_in : forall x t, In x (elems t) <-> 0 < occ x t.
Proof.
  intros x t. induction t as [|c l IHl a r IHr]; cbn [elems occ]; [cbn; split; [contradiction | lia]|]. rewrite in_app_iff. cbn [In]. rewrite IHl, IHr. destruct (Nat.eq_dec a x) as [-> | N]; [rewrite one_refl; lia | rewrite (one_ne a x N); intuition lia].
Qed.
Lemma nodup_occ : forall t, NoDup (elems t) <-> forall x, occ x t <= 1.
Proof.
  assert (CO : forall x l, count_occ Nat.eq_dec l x = count_occ Nat.eq_dec l x) by reflexivity. clear CO.
  assert (C : forall t x, count_occ Nat.eq_dec (elems t) x = occ x t).
  { induction t as [|c l IHl a r IHr]; intro x; cbn [elems occ]; [reflexivity|]. rewrite count_occ_app. cbn [count_occ]. rewrite IHl, IHr. destruct (Nat.eq_dec a x) as [-> | N]; [rewrite one_refl | rewrite (one_ne a x N)]; lia. }
  intro t. rewrite (NoDup_count_occ Nat.eq_dec). split; intros H x; specialize (H x); [rewrite <- C | rewrite C]; exact H.
Qed.
Lemma occ_plug : forall k t x, occ x (plug k t) = occ x t + cocc x k.
Proof. induction k as [|[c a r|c a l] k IH]; intros t x; cbn [plug cocc]; [lia| |]; rewrite IH; cbn [occ]; lia. Qed.
Lemma elems_plug : forall k t t', elems t = elems t' -> elems (plug k t) = elems (plug k t').
Proof. induction k as [|[c a r|c a l] k IH]; intros t t' H; cbn [plug]; [exact H| |]; apply IH; cbn [elems]; rewrite H; reflexivity. Qed.
Lemma rep_plug : forall k m R t, rep_ctx m R k (ra t) -> rep m (par k) t -> rep m 0 (plug k t) /\ R = ra (plug k t).
Proof.
  induction k as [|[c a r|c a l] k IH]; intros m R t C P; cbn [plug rep_ctx par] in *; [auto| |]; destruct C as (C1 & C2 & C3); apply IH; cbn [ra rep]; auto.
Qed.
Lemma good_stores : forall h k t, good h k t -> stores h (plug k t).
Proof.
  intros h k t [C P N Z]. destruct (rep_plug k (mem h) (root h) t C P) as [A B]. split; [exact B|]. split; [exact A|]. split.
  - apply nodup_occ. intro x. rewrite occ_plug. apply N.
  - rewrite occ_in, occ_plug. lia.
Qed.
Lemma stores_good : forall h t, stores h t -> good h [] t.
Proof.
  intros h t (A & B & C & D). constructor; cbn [rep_ctx par cocc]; auto.
  - intro x. rewrite Nat.add_0_r. apply nodup_occ. exact C.
  - rewrite occ_in in D. lia.
Qed.
(** going down *)
Lemma good_left : forall h k c l a r, good h k (T c l a r) -> good h (FL c a r :: k) l.
Proof.
  intros h k c l a r [C P N Z]. cbn [ra rep] in *. destruct P as (P1 & P2 & P3). constructor; cbn [rep_ctx par cocc]; auto.
  - intro x. specialize (N x). cbn [occ] in N. lia.
  - cbn [occ] in Z. lia.
Qed.
Lemma good_right : forall h k c l a r, good h k (T c l a r) -> good h (FR c a l :: k) r.
Proof.
  intros h k c l a r [C P N Z]. cbn [ra rep] in *. destruct P as (P1 & P2 & P3). constructor; cbn [rep_ctx par cocc]; auto.
  - intro x. specialize (N x). cbn [occ] in N. lia.
  - cbn [occ] in Z. lia.
Qed.

Lemma rep_frame : forall m m' t p, (forall y, 0 < occ y t -> m' y = m y) -> rep m p t -> rep m' p t.
Proof.
  intros m m' t. induction t as [|c l IHl a r IHr]; intros p H P; cbn [rep] in *; [exact Logic.I|]. destruct P as (P1 & P2 & P3). split; [rewrite H; [exact P1 | cbn [occ]; rewrite one_refl; lia]|].
  split; [apply IHl | apply IHr]; auto; intros y Y; apply H; cbn [occ]; lia.
Qed.
Lemma rep_ctx_frame : forall k m m' R a, (forall y, 0 < cocc y k -> m' y = m y) -> rep_ctx m R k a -> rep_ctx m' R k a.
Proof.
  induction k as [|[c x t|c x t] k IH]; intros m m' R a H P; cbn [rep_ctx cocc] in *; [exact P| |]; destruct P as (P1 & P2 & P3); (split; [rewrite H; [exact P1 | rewrite one_refl; lia]|]); (split; [apply (rep_frame m); [intros y Y; apply H; lia | exact P2] | apply (IH m); [intros y Y; apply H; lia | exact P3]]).
Qed.

(** ** Primitive operations *)
Lemma upd_same : forall m a n, upd m a n a = n. Proof. intros. unfold upd. rewrite Nat.eqb_refl. reflexivity. Qed.
Lemma upd_other : forall m a n x, x <> a -> upd m a n x = m x. Proof. intros m a n x N. unfold upd. rewrite (proj2 (Nat.eqb_neq x a) N). reflexivity. Qed.

Definition wrote (h h' : heap) (a : nat) (n : node) : Prop := root h' = root h /\ mem h' a = Some n /\ forall y, y <> a -> mem h' y = mem h y.
Ltac prim := intros; match goal with H : mem _ _ = Some _ |- _ => eexists; split; [rewrite H; reflexivity|]; repeat split; cbn [mem root]; [apply upd_same | intros; apply upd_other; assumption] end.
Lemma set_left_spec : forall h a v n, mem h a = Some n -> exists h', set_left h a v = Some h' /\ wrote h h' a {| lf := v; rg := rg n; pa := pa n; bl := bl n |}.
Proof. unfold set_left, wrote. prim. Qed.
Lemma set_right_spec : forall h a v n, mem h a = Some n -> exists h', set_right h a v = Some h' /\ wrote h h' a {| lf := lf n; rg := v; pa := pa n; bl := bl n |}.
Proof. unfold set_right, wrote. prim. Qed.
Lemma set_black_spec : forall h a n, mem h a = Some n -> exists h', set_black h a = Some h' /\ wrote h h' a {| lf := lf n; rg := rg n; pa := pa n; bl := true |}.
Proof. unfold set_black, wrote. prim. Qed.
Lemma set_parent_spec : forall h a p n, mem h a = Some n -> exists h', set_parent h a p = Some h' /\ wrote h h' a {| lf := lf n; rg := rg n; pa := p; bl := bl n |}.
Proof. unfold set_parent, wrote. prim. Qed.
Lemma set_pc_spec : forall h a p c n, mem h a = Some n -> exists h', set_pc h a p c = Some h' /\ wrote h h' a {| lf := lf n; rg := rg n; pa := p; bl := c |}.
Proof. unfold set_pc, wrote. prim. Qed.

Definition paint (c : bool) (t : tree) : tree := match t with E => E | T _ l a r => T c l a r end.
Lemma paint_ra : forall c t, ra (paint c t) = ra t. Proof. intros c [|]; reflexivity. Qed.
Lemma paint_occ : forall c t x, occ x (paint c t) = occ x t. Proof. intros c [|] x; reflexivity. Qed.
Lemma paint_black : forall t, is_black t = true -> paint true t = t. Proof. intros [|[] l a r] H; cbn in *; congruence. Qed.

Lemma ra_occ : forall t, t = E \/ 0 < occ (ra t) t.
Proof. intros [|c l a r]; [auto|]. right. cbn [ra occ]. rewrite one_refl. lia. Qed.
(** re-parenting the root of a subtree *)
Lemma set_pc_if_spec : forall h t p p' c, rep (mem h) p t -> (forall x, occ x t <= 1) -> occ 0 t = 0 ->
  exists h', set_pc_if h (ra t) p' c = Some h' /\ root h' = root h /\ rep (mem h') p' (paint c t) /\ forall y, occ y t = 0 -> mem h' y = mem h y.
Proof.
  intros h t p p' c P N Z. unfold set_pc_if. destruct t as [|c0 l a r]; cbn [ra paint] in *; [exists h; auto|]. destruct (Nat.eqb_spec a 0) as [-> | A]; [exfalso; cbn [occ] in Z; rewrite one_refl in Z; lia|].
  cbn [rep] in P. destruct P as (P1 & P2 & P3). destruct (set_pc_spec h a p' c _ P1) as (h' & E1 & W1 & W2 & W3). exists h'. split; [exact E1|]. split; [exact W1|]. split.
  - cbn [rep]. split; [exact W2|]. specialize (N a). cbn [occ] in N. rewrite one_refl in N.
    split; apply (rep_frame (mem h)); auto; intros y Y; apply W3; intros ->; lia.
  - intros y Y. apply W3. intros ->. cbn [occ] in Y. rewrite one_refl in Y. lia.
Qed.
Lemma set_parent_if_spec : forall h t p p', rep (mem h) p t -> (forall x, occ x t <= 1) -> occ 0 t = 0 ->
  exists h', set_parent_if h (ra t) p' = Some h' /\ root h' = root h /\ rep (mem h') p' t /\ forall y, occ y t = 0 -> mem h' y = mem h y.
Proof.
  intros h t p p' P N Z. unfold set_parent_if. destruct t as [|c0 l a r]; cbn [ra] in *; [exists h; auto|]. destruct (Nat.eqb_spec a 0) as [-> | A]; [exfalso; cbn [occ] in Z; rewrite one_refl in Z; lia|].
  cbn [rep] in P. destruct P as (P1 & P2 & P3). destruct (set_parent_spec h a p' _ P1) as (h' & E1 & W1 & W2 & W3). exists h'. split; [exact E1|]. split; [exact W1|]. split.
  - cbn [rep]. split; [exact W2|]. specialize (N a). cbn [occ] in N. rewrite one_refl in N.
    split; apply (rep_frame (mem h)); auto; intros y Y; apply W3; intros ->; lia.
  - intros y Y. apply W3. intros ->. cbn [occ] in Y. rewrite one_refl in Y. lia.
Qed.

Lemma par_occ : forall k, k = [] \/ 0 < cocc (par k) k.
Proof. intros [|[c x t|c x t] k]; [auto| |]; right; cbn [par cocc]; rewrite one_refl; lia. Qed.
Lemma change_child_spec : forall h k old new, rep_ctx (mem h) (root h) k old -> (forall x, cocc x k <= 1) -> cocc old k = 0 -> cocc 0 k = 0 -> old <> 0 ->
  exists h', change_child h old new (par k) = Some h' /\ rep_ctx (mem h') (root h') k new /\ forall y, cocc y k = 0 -> mem h' y = mem h y.
Proof.
  intros h k old new P N O Z NZ. unfold change_child. destruct k as [|[c x t|c x t] k]; cbn [par rep_ctx] in *.
  - cbn. eexists. split; [reflexivity|]. cbn [mem root]. auto.
  - destruct P as (P1 & P2 & P3). destruct (Nat.eqb_spec x 0) as [-> | X]; [exfalso; cbn [cocc] in Z; rewrite one_refl in Z; lia|]. unfold left. rewrite P1. cbn [option_map bind lf]. rewrite Nat.eqb_refl.
    destruct (set_left_spec h x new _ P1) as (h' & E1 & W1 & W2 & W3). exists h'. split; [exact E1|]. cbn [rg pa bl] in W2. pose proof (N x) as NX. cbn [cocc] in NX. rewrite one_refl in NX. split.
    + split; [exact W2|]. split; [apply (rep_frame (mem h)); [intros y Y; apply W3; intros ->; lia | exact P2] | rewrite W1; apply (rep_ctx_frame k (mem h)); [intros y Y; apply W3; intros ->; lia | exact P3]].
    + intros y Y. apply W3. intros ->. cbn [cocc] in Y. rewrite one_refl in Y. lia.
  - destruct P as (P1 & P2 & P3). destruct (Nat.eqb_spec x 0) as [-> | X]; [exfalso; cbn [cocc] in Z; rewrite one_refl in Z; lia|]. unfold left. rewrite P1. cbn [option_map bind lf].
    destruct (Nat.eqb_spec (ra t) old) as [Q | Q].
    { exfalso. destruct (ra_occ t) as [-> | R]; [cbn in Q; congruence|]. rewrite Q in R. cbn [cocc] in O. lia. }
    destruct (set_right_spec h x new _ P1) as (h' & E1 & W1 & W2 & W3). exists h'. split; [exact E1|]. cbn [lf pa bl] in W2. pose proof (N x) as NX. cbn [cocc] in NX. rewrite one_refl in NX. split.
    + split; [exact W2|]. split; [apply (rep_frame (mem h)); [intros y Y; apply W3; intros ->; lia | exact P2] | rewrite W1; apply (rep_ctx_frame k (mem h)); [intros y Y; apply W3; intros ->; lia | exact P3]].
    + intros y Y. apply W3. intros ->. cbn [cocc] in Y. rewrite one_refl in Y. lia.
Qed.
Lemma rotate_spec : forall h k old new lo ro co nn c, rep_ctx (mem h) (root h) k old -> mem h old = Some {| lf := lo; rg := ro; pa := par k; bl := co |} -> mem h new = Some nn ->
  (forall x, cocc x k <= 1) -> cocc old k = 0 -> cocc new k = 0 -> cocc 0 k = 0 -> old <> 0 -> old <> new ->
  exists h', rotate_set_parents h old new c = Some h' /\ mem h' new = Some {| lf := lf nn; rg := rg nn; pa := par k; bl := co |} /\ mem h' old = Some {| lf := lo; rg := ro; pa := new; bl := c |} /\
    rep_ctx (mem h') (root h') k new /\ forall y, y <> old -> y <> new -> cocc y k = 0 -> mem h' y = mem h y.
Proof.
  intros h k old new lo ro co nn c P MO MN N O1 O2 Z NZ ON. unfold rotate_set_parents, parent, black. rewrite MO. cbn [option_map bind pa bl].
  destruct (set_pc_spec h new (par k) co nn MN) as (h1 & E1 & W1 & W2 & W3). rewrite E1. cbn [bind].
  assert (MO1 : mem h1 old = Some {| lf := lo; rg := ro; pa := par k; bl := co |}) by (rewrite W3 by exact ON; exact MO).
  destruct (set_pc_spec h1 old new c _ MO1) as (h2 & E2 & X1 & X2 & X3). rewrite E2. cbn [bind lf rg] in *.
  assert (P2 : rep_ctx (mem h2) (root h2) k old).
  { rewrite X1, W1. apply (rep_ctx_frame k (mem h)); [|exact P]. intros y Y. rewrite X3, W3; [reflexivity| |]; intros ->; lia. }
  destruct (change_child_spec h2 k old new P2 N O1 Z NZ) as (h3 & E3 & Y1 & Y2). exists h3. split; [exact E3|]. split; [rewrite Y2 by exact O2; rewrite X3 by congruence; exact W2|]. split; [rewrite Y2 by exact O1; exact X2|].
  split; [exact Y1|]. intros y A B C. rewrite Y2, X3, W3 by assumption. reflexivity.
Qed.

(** ** Balance with a hole *)
Inductive cwf : ctx -> nat -> bool -> Prop :=
  | cw_nil : forall m, cwf [] m false
  | cw_LB : forall x r k m b, wf r m -> cwf k (S m) b -> cwf (FL true x r :: k) m true
  | cw_RB : forall x l k m b, wf l m -> cwf k (S m) b -> cwf (FR true x l :: k) m true
  | cw_LR : forall x r k m, wf r m -> is_black r = true -> cwf k m true -> cwf (FL false x r :: k) m false
  | cw_RR : forall x l k m, wf l m -> is_black l = true -> cwf k m true -> cwf (FR false x l :: k) m false.
Lemma plug_balanced : forall k t m b, wf t m -> is_black t = true \/ b = true -> cwf k m b -> balanced (plug k t).
Proof.
  induction k as [|f k IH]; intros t m b W B C; inversion C; subst; cbn [plug].
  - destruct B as [B | B]; [|discriminate]. split; [exact B | exists m; exact W].
  - eapply IH; [apply wf_B; eassumption | left; reflexivity | eassumption].
  - eapply IH; [apply wf_B; eassumption | left; reflexivity | eassumption].
  - destruct B as [B | B]; [|discriminate]. eapply IH; [apply wf_R; eassumption | right; reflexivity | eassumption].
  - destruct B as [B | B]; [|discriminate]. eapply IH; [apply wf_R; eassumption | right; reflexivity | eassumption].
Qed.
Lemma wf_down : forall k t, balanced (plug k t) -> exists m b, wf t m /\ cwf k m b /\ (is_black t = true \/ b = true).
Proof.
  induction k as [|[c x s|c x s] k IH]; intros t H; cbn [plug] in H.
  - destruct H as [B (m & W)]. exists m, false. split; [exact W|]. split; [constructor | auto].
  - destruct (IH _ H) as (m & b & W & C & D). inversion W; subst.
    + exists n, true. split; [assumption|]. split; [eapply cw_LB; eassumption | auto].
    + cbn in D. destruct D as [D | ->]; [discriminate|]. exists m, false. split; [assumption|]. split; [apply cw_LR; assumption | auto].
  - destruct (IH _ H) as (m & b & W & C & D). inversion W; subst.
    + exists n, true. split; [assumption|]. split; [eapply cw_RB; eassumption | auto].
    + cbn in D. destruct D as [D | ->]; [discriminate|]. exists m, false. split; [assumption|]. split; [apply cw_RR; assumption | auto].
Qed.

(** ** Symbolic execution *)
Lemma left_eq : forall h a n, mem h a = Some n -> left h a = Some (lf n). Proof. intros h a n H. unfold left. rewrite H. reflexivity. Qed.
Lemma right_eq : forall h a n, mem h a = Some n -> right h a = Some (rg n). Proof. intros h a n H. unfold right. rewrite H. reflexivity. Qed.
Lemma parent_eq : forall h a n, mem h a = Some n -> parent h a = Some (pa n). Proof. intros h a n H. unfold parent. rewrite H. reflexivity. Qed.
Lemma black_eq : forall h a n, mem h a = Some n -> black h a = Some (bl n). Proof. intros h a n H. unfold black. rewrite H. reflexivity. Qed.
Lemma red_parent_eq : forall h a n, mem h a = Some n -> bl n = false -> red_parent h a = Some (pa n). Proof. intros h a n H B. unfold red_parent. rewrite H, B. reflexivity. Qed.
Lemma ra_ne : forall x t, occ x t = 0 -> x <> 0 -> x <> ra t.
Proof. intros x [|c l a r] O Z Q; cbn [ra occ] in *; [congruence|]. subst a. rewrite one_refl in O. lia. Qed.
Lemma is_red_eq : forall h p t, rep (mem h) p t -> occ 0 t = 0 -> is_red_node h (ra t) = Some (negb (is_black t)).
Proof.
  intros h p [|c l a r] P Z; unfold is_red_node; cbn [ra is_black]; [reflexivity|]. cbn [rep] in P. destruct P as (P & _). destruct (Nat.eqb_spec a 0) as [-> | N]; [cbn [occ] in Z; rewrite one_refl in Z; lia|].
  rewrite (black_eq _ _ _ P). reflexivity.
Qed.
Lemma is_black_eq : forall h p t, rep (mem h) p t -> occ 0 t = 0 -> is_black_or_null h (ra t) = Some (is_black t).
Proof.
  intros h p [|c l a r] P Z; unfold is_black_or_null; cbn [ra is_black]; [reflexivity|]. cbn [rep] in P. destruct P as (P & _). destruct (Nat.eqb_spec a 0) as [-> | N]; [cbn [occ] in Z; rewrite one_refl in Z; lia|].
  rewrite (black_eq _ _ _ P). reflexivity.
Qed.

(** what is evaluated next *)
Ltac headof X := lazymatch X with
  | bind ?e _ => headof e
  | negb ?e => headof e
  | (if ?c then _ else _) => headof c
  | ?e => e
  end.
Ltac hd := lazymatch goal with |- ex (fun h' => ?X = @?Y h' /\ @?Q h') => headof X end.
(** ND : no address occurs twice, NZ : 0 does not occur; both with [occ] and [cocc] unfolded *)
Ltac at_ ND x := let Y := fresh "Y" in pose proof (ND x) as Y; rewrite ?one_refl in Y; lia.
Ltac neq := match goal with
  | ND : forall x, _ <= 1, NZ : _ = 0 |- ?a <> 0 => let X := fresh in intro X; rewrite X in NZ; rewrite ?one_refl in NZ; lia
  | ND : forall x, _ <= 1 |- ?a <> ra ?t => apply ra_ne; [at_ ND a | neq]
  | ND : forall x, _ <= 1 |- ra ?t <> ?a => apply not_eq_sym; apply ra_ne; [at_ ND a | neq]
  | ND : forall x, _ <= 1 |- ?a <> ?b => let X := fresh in intro X; let Y := fresh in pose proof (ND b) as Y; rewrite X in Y; rewrite ?one_refl in Y; lia
  end.
Ltac zero := match goal with
  | ND : forall x, _ <= 1, NZ : _ = 0 |- occ 0 _ = 0 => cbn [occ]; lia
  | ND : forall x, _ <= 1, NZ : _ = 0 |- cocc 0 _ = 0 => cbn [cocc]; lia
  | ND : forall x, _ <= 1 |- occ ?a _ = 0 => at_ ND a
  | ND : forall x, _ <= 1 |- cocc ?a _ = 0 => cbn [cocc]; at_ ND a
  | ND : forall x, _ <= 1 |- forall x, occ x _ <= 1 => let x := fresh in intro x; cbn [occ]; at_ ND x
  | ND : forall x, _ <= 1 |- forall x, cocc x _ <= 1 => let x := fresh in intro x; cbn [cocc]; at_ ND x
  end.
(** [W3] : what did not change *)
Ltac agree ND W3 := let y := fresh "y" in let Y := fresh "Y" in intros y Y; cbn [occ cocc] in Y; apply W3;
  first [ let Q := fresh in intro Q; subst y; at_ ND ltac:(idtac) | idtac ].
Ltac ag1 ND a W3 := let y := fresh "y" in let Y := fresh "Y" in intros y Y; cbn [occ cocc] in Y; apply W3; let Q := fresh in intro Q; rewrite ?Q in Y; let Z := fresh in pose proof (ND a) as Z; rewrite ?one_refl in Z; lia.
Ltac move_wrote h h' a W1 W3 :=
  repeat match goal with
  | H : mem h a = Some _ |- _ => clear H
  | H : mem h ?x = Some _ |- _ => rewrite <- (W3 x) in H by neq
  | ND : forall x, _ <= 1, H : rep (mem h) ?p ?t |- _ => apply (rep_frame (mem h) (mem h') t p) in H; [|ag1 ND a W3]
  | ND : forall x, _ <= 1, H : rep_ctx (mem h) (root h) ?k ?v |- _ => apply (rep_ctx_frame k (mem h) (mem h') (root h) v) in H; [rewrite <- W1 in H|ag1 ND a W3]
  | AG : forall y, _ = 0 -> mem h y = _ |- _ =>
      let AG' := fresh "AG" in
      match type of AG with forall y, @?s y = 0 -> _ = @?q y =>
        assert (AG' : forall y, s y = 0 -> mem h' y = q y);
        [ let y := fresh "y" in let Y := fresh "Y" in intros y Y; cbv beta in Y; rewrite W3; [exact (AG y Y) | let Q := fresh in intro Q; rewrite ?Q in Y; rewrite ?one_refl in Y; lia]
        | cbv beta in AG'; clear AG ] end
  end.
Ltac fin_wrote h h' a W :=
  let W1 := fresh "W1" in let W2 := fresh "W2" in let W3 := fresh "W3" in destruct W as (W1 & W2 & W3); cbn [lf rg pa bl RED BLACK] in W2; move_wrote h h' a W1 W3; clear W1 W3; try clear h.
(** one write *)
Ltac wr1 h L := let h' := fresh "h" in let E := fresh in let W := fresh in destruct L as (h' & E & W); rewrite E; clear E; cbn [bind]; match type of W with wrote _ _ ?a _ => fin_wrote h h' a W end.
Ltac wr := let e := hd in lazymatch e with
  | set_left ?h ?a ?v => match goal with H : mem h a = Some ?n |- _ => wr1 h (set_left_spec h a v n H) end
  | set_right ?h ?a ?v => match goal with H : mem h a = Some ?n |- _ => wr1 h (set_right_spec h a v n H) end
  | set_pc ?h ?a ?p ?c => match goal with H : mem h a = Some ?n |- _ => wr1 h (set_pc_spec h a p c n H) end
  | set_parent ?h ?a ?p => match goal with H : mem h a = Some ?n |- _ => wr1 h (set_parent_spec h a p n H) end
  | set_black ?h ?a => match goal with H : mem h a = Some ?n |- _ => wr1 h (set_black_spec h a n H) end
  end.
(** re-parenting a subtree *)
Ltac ag2 ND W3 := let y := fresh "y" in let Y := fresh "Y" in intros y Y; cbn [occ cocc] in Y; apply W3; let Z := fresh in pose proof (ND y) as Z; lia.
Ltac move_sub h h' t W1 W3 :=
  repeat match goal with
  | H : mem h ?x = Some _ |- _ => rewrite <- (W3 x) in H by zero
  | H : rep (mem h) _ t |- _ => clear H
  | ND : forall x, _ <= 1, H : rep (mem h) ?p ?u |- _ => apply (rep_frame (mem h) (mem h') u p) in H; [|ag2 ND W3]
  | ND : forall x, _ <= 1, H : rep_ctx (mem h) (root h) ?k ?v |- _ => apply (rep_ctx_frame k (mem h) (mem h') (root h) v) in H; [rewrite <- W1 in H|ag2 ND W3]
  | AG : forall y, _ = 0 -> mem h y = _ |- _ =>
      let AG' := fresh "AG" in
      match type of AG with forall y, @?s y = 0 -> _ = @?q y =>
        assert (AG' : forall y, s y = 0 -> mem h' y = q y);
        [ let y := fresh "y" in let Y := fresh "Y" in intros y Y; cbv beta in Y; rewrite W3; [exact (AG y Y) | lia]
        | cbv beta in AG'; clear AG ] end
  end.
Ltac wsub1 h t L := let h' := fresh "h" in let E := fresh in let W1 := fresh "W1" in let W2 := fresh "W2" in let W3 := fresh "W3" in
  destruct L as (h' & E & W1 & W2 & W3); rewrite E; clear E; cbn [bind]; move_sub h h' t W1 W3; clear W1 W3; try clear h.
Ltac wsub := let e := hd in lazymatch e with
  | set_pc_if ?h (ra ?t) ?p' ?c => match goal with H : rep (mem h) ?p t |- _ => wsub1 h t (set_pc_if_spec h t p p' c H ltac:(zero) ltac:(zero)) end
  | set_parent_if ?h (ra ?t) ?p' => match goal with H : rep (mem h) ?p t |- _ => wsub1 h t (set_parent_if_spec h t p p' H ltac:(zero) ltac:(zero)) end
  end.
(** reads *)
Ltac rd := let e := hd in lazymatch e with
  | left ?h ?a => match goal with H : mem h a = Some ?n |- _ => rewrite (left_eq h a n H) end
  | right ?h ?a => match goal with H : mem h a = Some ?n |- _ => rewrite (right_eq h a n H) end
  | parent ?h ?a => match goal with H : mem h a = Some ?n |- _ => rewrite (parent_eq h a n H) end
  | black ?h ?a => match goal with H : mem h a = Some ?n |- _ => rewrite (black_eq h a n H) end
  | red_parent ?h ?a => match goal with H : mem h a = Some ?n |- _ => rewrite (red_parent_eq h a n H eq_refl) end
  | is_red_node ?h (ra ?t) => match goal with H : rep (mem h) ?p t |- _ => rewrite (is_red_eq h p t H ltac:(zero)) end
  | is_black_or_null ?h (ra ?t) => match goal with H : rep (mem h) ?p t |- _ => rewrite (is_black_eq h p t H ltac:(zero)) end
  end; cbn [bind lf rg pa bl negb ra par RED BLACK].
Ltac cmp := let e := hd in lazymatch e with
  | ?a =? ?a => rewrite (Nat.eqb_refl a)
  | ?a =? ?b => rewrite (proj2 (Nat.eqb_neq a b)) by neq
  end; cbn [bind negb].
Ltac rot := match goal with
  | C : rep_ctx (mem ?h) (root ?h) ?k ?old, MO : mem ?h ?old = Some {| lf := ?lo; rg := ?ro; pa := par ?k; bl := ?co |}, MN : mem ?h ?new = Some ?nn |- context [rotate_set_parents ?h ?old ?new ?c] =>
      let h' := fresh "h" in let E := fresh in let W1 := fresh "W" in let W2 := fresh "W" in let W3 := fresh "W" in let W4 := fresh "W" in
      destruct (rotate_spec h k old new lo ro co nn c C MO MN ltac:(zero) ltac:(zero) ltac:(zero) ltac:(zero) ltac:(neq) ltac:(neq)) as (h' & E & W1 & W2 & W3 & W4);
      rewrite E; clear E; cbn [bind lf rg pa bl] in *; clear MO MN C;
      repeat match goal with
      | H : mem h ?x = Some _ |- _ => rewrite <- (W4 x) in H by (first [neq | zero])
      | ND : forall x, _ <= 1, H : rep (mem h) ?p ?u |- _ => apply (rep_frame (mem h) (mem h') u p) in H;
          [|let y := fresh "y" in let Y := fresh "Y" in intros y Y; cbn [occ cocc] in Y; apply W4; [let Q := fresh in intro Q; rewrite ?Q in Y; at_ ND old | let Q := fresh in intro Q; rewrite ?Q in Y; at_ ND new | cbn [cocc]; at_ ND y]]
      | AG : forall y, _ = 0 -> mem h y = _ |- _ =>
          let AG' := fresh "AG" in
          match type of AG with forall y, @?s y = 0 -> _ = @?q y =>
            assert (AG' : forall y, s y = 0 -> mem h' y = q y);
            [ let y := fresh "y" in let Y := fresh "Y" in intros y Y; cbv beta in Y; rewrite W4; [exact (AG y Y) | let Q := fresh in intro Q; rewrite ?Q in Y; rewrite ?one_refl in Y; lia | let Q := fresh in intro Q; rewrite ?Q in Y; rewrite ?one_refl in Y; lia | cbn [cocc]; lia]
            | cbv beta in AG'; clear AG ] end
      end; clear W4; try clear h
  end.

(** result of a rebalancing started at a hole *)
Definition result (h0 h : heap) (k : ctx) (t : tree) : Prop :=
  exists t', stores h t' /\ elems t' = elems (plug k t) /\ balanced t' /\ forall y, occ y t + cocc y k = 0 -> mem h y = mem h0 y.

Ltac split_rep := cbn [rep rep_ctx ra par] in *; repeat match goal with H : _ /\ _ |- _ => let A := fresh "M" in let B := fresh "P" in destruct H as (A & B) end.
(** the final state: a heap with all facts about its nodes *)
Ltac goodify := constructor; [cbn [rep_ctx ra par]; repeat (split; [eassumption|]); try eassumption | cbn [rep ra par]; repeat (split; try eassumption) | let x := fresh in intro x; match goal with ND : forall x, _ <= 1 |- _ => pose proof (ND x) end; cbn [occ cocc]; lia | cbn [occ cocc]; lia].

Ltac agfin := match goal with AG : forall y, _ = 0 -> mem ?h y = _ |- forall y, _ -> mem ?h y = _ => exact AG end.
Ltac assoc := cbn [elems]; rewrite <- ?app_assoc; cbn [app]; rewrite <- ?app_assoc; cbn [app]; rewrite <- ?app_assoc; reflexivity.
Ltac wfs := repeat first [eassumption | apply wf_B | apply wf_R | reflexivity].
Ltac finish k t := eexists; split; [reflexivity|]; exists (plug k t); split; [apply good_stores; goodify|]; split; [cbn [plug]; apply elems_plug; assoc|]; split; [eapply plug_balanced; [wfs | left; reflexivity | eassumption] | agfin].
Ltac pb := unfold BLACK, RED in *; repeat match goal with H : context [paint true ?t] |- _ => rewrite (paint_black t) in H by assumption end.
Ltac rc := repeat first [cmp | rd].
Ltac go := repeat first [cmp | rd | (wr; cbn [bind]) | (wsub; pb) | rot].
(** climbing two levels *)
Ltac climb IH k t gp := 
  match goal with |- exists h', insert_loop _ ?h gp (par k) = _ /\ _ =>
    let G := fresh "G" in assert (G : good h k t) by goodify;
    let R1 := fresh "R" in
    edestruct IH with (2 := G) as (h' & E' & t' & S1 & S2 & S3 & S4); [cbn [length] in *; lia | wfs | wfs | reflexivity | reflexivity | eassumption |];
    exists h'; split; [exact E'|]; exists t'; split; [exact S1|]; split; [rewrite S2; cbn [plug]; apply elems_plug; assoc|]; split; [exact S3|];
    let y := fresh "y" in let Y := fresh "Y" in intros y Y; rewrite S4; [|cbn [occ cocc] in *; lia]; match goal with AG : forall y, _ = 0 -> mem h y = _ |- _ => apply AG; cbn [occ cocc] in *; lia end
  end.
Lemma insert_loop_spec : forall fuel k A n B h m b, length k < fuel -> good h k (T false A n B) -> wf A m -> wf B m -> is_black A = true -> is_black B = true -> cwf k m b ->
  exists h', insert_loop fuel h n (par k) = Some h' /\ result h h' k (T false A n B).
Proof.
  induction fuel as [|f IH]; intros k A n B h m b F G WA WB BA BB CW; [lia|]. remember h as h0 eqn:H0 in |- * at 2. 
  assert (AG : forall y, occ y (T false A n B) + cocc y k = 0 -> mem h y = mem h0 y) by (subst; reflexivity). clear H0.
  destruct k as [|f1 k].
  { (* the root *) destruct G as [C P ND NZ]. cbn [ra] in C. cbn [insert_loop]. cbn [par]. cbn [Nat.eqb]. cbn [occ cocc] in *. cbn [rep] in P; destruct P as (M & P0 & P1). wr. eexists. split; [reflexivity|]. exists (T true A n B).
    split; [apply (good_stores _ [])|]; [goodify|]. split; [reflexivity|]. split; [split; [reflexivity | exists (S m); apply wf_B; assumption] | agfin]. }
  pose proof (good_stores _ _ _ G) as ST. destruct G as [C P ND NZ]. cbn [ra] in C. cbn [insert_loop].
  assert (DONE : b = true -> balanced (plug (f1 :: k) (T false A n B))).
  { intros ->. eapply plug_balanced; [apply wf_R; eassumption | right; reflexivity | exact CW]. }
  inversion CW; subst f1 k0 m0; match goal with H : _ = b |- _ => symmetry in H end.
  - (* black parent *) cbn [occ cocc par] in *. split_rep. rc. eexists. split; [reflexivity|]. eexists. split; [exact ST|]. split; [reflexivity|]. split; [auto | agfin].
  - cbn [occ cocc par] in *. split_rep. rc. eexists. split; [reflexivity|]. eexists. split; [exact ST|]. split; [reflexivity|]. split; [auto | agfin].
  - (* red parent, n on the left *)
    match goal with H : cwf k m true |- _ => inversion H; subst end; clear CW DONE ST; cbn [occ cocc par length] in *; split_rep.
    + rc. destruct (is_black r0) eqn:BU; cbn [negb].
      * go. finish k0 (T true (T false A n B) x (T false r x0 r0)).
      * destruct r0 as [|[] ul u ur]; try discriminate. cbn [occ ra] in *. split_rep. match goal with H : wf (T false _ _ _) _ |- _ => inversion H; subst end. go. climb IH k0 (T false (T true (T false A n B) x r) x0 (T true ul u ur)) x0.
    + rc. destruct (is_black l) eqn:BU; cbn [negb].
      * go. finish k0 (T true (T false l x0 A) n (T false B x r)).
      * destruct l as [|[] ul u ur]; try discriminate. cbn [occ ra] in *. split_rep. match goal with H : wf (T false _ _ _) _ |- _ => inversion H; subst end. go. climb IH k0 (T false (T true ul u ur) x0 (T true (T false A n B) x r)) x0.
  - match goal with H : cwf k m true |- _ => inversion H; subst end; clear CW DONE ST; cbn [occ cocc par length] in *; split_rep.
    + rc. destruct (is_black r) eqn:BU; cbn [negb].
      * go. finish k0 (T true (T false l x A) n (T false B x0 r)).
      * destruct r as [|[] ul u ur]; try discriminate. cbn [occ ra] in *. split_rep. match goal with H : wf (T false _ _ _) _ |- _ => inversion H; subst end. go. climb IH k0 (T false (T true l x (T false A n B)) x0 (T true ul u ur)) x0.
    + rc. destruct (is_black l0) eqn:BU; cbn [negb].
      * go. finish k0 (T true (T false l0 x0 l) x (T false A n B)).
      * destruct l0 as [|[] ul u ur]; try discriminate. cbn [occ ra] in *. split_rep. match goal with H : wf (T false _ _ _) _ |- _ => inversion H; subst end. go. climb IH k0 (T false (T true ul u ur) x0 (T true l x (T false A n B))) x0.
Qed.
