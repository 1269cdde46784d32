From Coq Require Import List Bool Arith ZArith Lia Sorted.
Import ListNotations.
From Verif Require Import RbtModel RbtSpec RbtProofs RbtFixProofs RbtRemoveProofs.

(** ** Stepping *)
Lemma hd_app : forall (x y : list nat), x <> [] -> hd 0 (x ++ y) = hd 0 x.
Proof. intros [|a x] y N; [congruence | reflexivity]. Qed.
Lemma last_app : forall (x y : list nat), y <> [] -> last (x ++ y) 0 = last y 0.
Proof. induction x as [|a x IH]; intros y N; [reflexivity|]. cbn [app last]. destruct (x ++ y) eqn:E1; [destruct x; [cbn in E1; congruence | discriminate] | rewrite <- E1; apply IH; exact N]. Qed.
Lemma elems_ne : forall c l a r, elems (T c l a r) <> [].
Proof. intros c l a r Q. cbn [elems] in Q. destruct (elems l); discriminate. Qed.
Lemma go_left_spec : forall t fuel h p, rep (mem h) p t -> occ 0 t = 0 -> t <> E -> height t <= fuel -> go_left fuel h (ra t) = Some (hd 0 (elems t)).
Proof.
  induction t as [|c l IHl a r IHr]; intros fuel h p P Z N F; [congruence|]. destruct fuel as [|f]; [cbn in F; lia|]. cbn [rep occ height ra go_left] in *. destruct P as (P1 & P2 & P3). rewrite (left_eq _ _ _ P1). cbn [bind lf].
  destruct (E_or l) as [-> | NL]; [reflexivity|]. rewrite (proj2 (Nat.eqb_neq _ _) (ra_nz l NL ltac:(lia))). rewrite (IHl f h a P2 ltac:(lia) NL ltac:(lia)). cbn [elems]. rewrite hd_app; [reflexivity|]. destruct l; [congruence | apply elems_ne].
Qed.
Lemma go_right_spec : forall t fuel h p, rep (mem h) p t -> occ 0 t = 0 -> t <> E -> height t <= fuel -> go_right fuel h (ra t) = Some (last (elems t) 0).
Proof.
  induction t as [|c l IHl a r IHr]; intros fuel h p P Z N F; [congruence|]. destruct fuel as [|f]; [cbn in F; lia|]. cbn [rep occ height ra go_right] in *. destruct P as (P1 & P2 & P3). rewrite (right_eq _ _ _ P1). cbn [bind rg].
  destruct (E_or r) as [-> | NL]; [cbn [ra elems]; cbn [Nat.eqb]; rewrite last_app by discriminate; reflexivity|]. rewrite (proj2 (Nat.eqb_neq _ _) (ra_nz r NL ltac:(lia))). rewrite (IHr f h a P3 ltac:(lia) NL ltac:(lia)). cbn [elems].
  rewrite last_app by discriminate. change (a :: elems r) with ([a] ++ elems r). rewrite last_app; [reflexivity|]. destruct r; [congruence | apply elems_ne].
Qed.
Lemma climb_next_spec : forall k fuel h a n, rep_ctx (mem h) (root h) k a -> mem h a = Some n -> pa n = par k -> (forall x, one a x + cocc x k <= 1) -> one a 0 + cocc 0 k = 0 -> length k < fuel -> climb_next fuel h a = Some (hd 0 (post k)).
Proof.
  induction k as [|f k IH]; intros fuel h a n C M P ND NZ F; (destruct fuel as [|g]; [lia|]); cbn [climb_next]; rewrite (parent_eq _ _ _ M), P; cbn [bind].
  - reflexivity.
  - destruct f as [c x t|c x t]; cbn [par rep_ctx cocc post length] in *; destruct C as (C1 & C2 & C3).
    + assert (x <> 0) as X by (intros ->; rewrite one_refl in NZ; lia). assert (a <> 0) as A by (intros ->; rewrite one_refl in NZ; lia). rewrite (proj2 (Nat.eqb_neq _ _) X), (right_eq _ _ _ C1). cbn [bind rg].
      assert (R : ra t <> a). { apply not_eq_sym. apply ra_ne; [|exact A]. specialize (ND a). rewrite one_refl in ND. lia. } rewrite (proj2 (Nat.eqb_neq _ _) R). reflexivity.
    + assert (x <> 0) as X by (intros ->; rewrite one_refl in NZ; lia). rewrite (proj2 (Nat.eqb_neq _ _) X), (right_eq _ _ _ C1). cbn [bind rg]. rewrite Nat.eqb_refl. eapply IH; [exact C3 | exact C1 | reflexivity | | lia | lia].
      intro y. specialize (ND y). lia.
Qed.
Lemma climb_prev_spec : forall k fuel h a n, rep_ctx (mem h) (root h) k a -> mem h a = Some n -> pa n = par k -> (forall x, one a x + cocc x k <= 1) -> one a 0 + cocc 0 k = 0 -> length k < fuel -> climb_prev fuel h a = Some (last (pre k) 0).
Proof.
  induction k as [|f k IH]; intros fuel h a n C M P ND NZ F; (destruct fuel as [|g]; [lia|]); cbn [climb_prev]; rewrite (parent_eq _ _ _ M), P; cbn [bind].
  - reflexivity.
  - destruct f as [c x t|c x t]; cbn [par rep_ctx cocc pre length] in *; destruct C as (C1 & C2 & C3).
    + assert (x <> 0) as X by (intros ->; rewrite one_refl in NZ; lia). rewrite (proj2 (Nat.eqb_neq _ _) X), (left_eq _ _ _ C1). cbn [bind lf]. rewrite Nat.eqb_refl. eapply IH; [exact C3 | exact C1 | reflexivity | | lia | lia].
      intro y. specialize (ND y). lia.
    + assert (x <> 0) as X by (intros ->; rewrite one_refl in NZ; lia). assert (a <> 0) as A by (intros ->; rewrite one_refl in NZ; lia). rewrite (proj2 (Nat.eqb_neq _ _) X), (left_eq _ _ _ C1). cbn [bind lf].
      assert (R : ra t <> a). { apply not_eq_sym. apply ra_ne; [|exact A]. specialize (ND a). rewrite one_refl in ND. lia. } rewrite (proj2 (Nat.eqb_neq _ _) R). rewrite !last_app by (try discriminate; destruct (elems t); discriminate). reflexivity.
Qed.
Lemma find_node : forall t a, In a (elems t) -> exists k c l r, t = plug k (T c l a r).
Proof.
  induction t as [|c l IHl x r IHr]; intros a H; [destruct H|]. cbn [elems] in H. rewrite in_app_iff in H. destruct H as [H | [-> | H]].
  - destruct (IHl a H) as (k & c' & l' & r' & Q). exists (k ++ [FL c x r]), c', l', r'. rewrite plug_app, <- Q. reflexivity.
  - exists [], c, l, r. reflexivity.
  - destruct (IHr a H) as (k & c' & l' & r' & Q). exists (k ++ [FR c x l]), c', l', r'. rewrite plug_app, <- Q. reflexivity.
Qed.
Lemma nodup_split : forall (X Y X' Y' : list nat) a, NoDup (X ++ a :: Y) -> X ++ a :: Y = X' ++ a :: Y' -> X = X' /\ Y = Y'.
Proof.
  induction X as [|x X IH]; intros Y X' Y' a N Q; destruct X' as [|x' X']; cbn [app] in *.
  - inversion Q. auto.
  - inversion Q; subst. exfalso. inversion N; subst. apply H1. apply in_or_app. right. left. reflexivity.
  - inversion Q; subst. exfalso. inversion N; subst. apply H1. apply in_or_app. right. left. reflexivity.
  - inversion Q; subst. inversion N; subst. destruct (IH Y X' Y' a H3 H1) as [-> ->]. auto.
Qed.
(** down to a node *)
Lemma good_plug : forall k h t, stores h (plug k t) -> good h k t.
Proof.
  intros k h t S. apply stores_good in S. revert t S. 
  assert (D : forall k k0 t, good h k0 (plug k t) -> good h (k ++ k0) t).
  { clear. induction k as [|[c x r|c x l] k IH]; intros k0 t G; cbn [plug app] in *; [exact G| |]; apply IH in G; [apply good_left | apply good_right]; exact G. }
  intros t S. apply D in S. rewrite app_nil_r in S. exact S.
Qed.
Lemma at_node : forall h t X a Y, stores h t -> elems t = X ++ a :: Y -> exists k c l r, t = plug k (T c l a r) /\ good h k (T c l a r) /\ X = pre k ++ elems l /\ Y = elems r ++ post k.
Proof.
  intros h t X a Y S Q. destruct (find_node t a) as (k & c & l & r & ->); [rewrite Q; apply in_or_app; right; left; reflexivity|]. exists k, c, l, r. split; [reflexivity|]. split; [apply good_plug; exact S|].
  destruct S as (_ & _ & N & _). rewrite Q in N. apply (nodup_split X Y _ _ a N). rewrite <- Q, elems_ctx. cbn [elems]. rewrite <- !app_assoc. reflexivity.
Qed.
Theorem next_spec : forall h t X a Y fuel, stores h t -> elems t = X ++ a :: Y -> height t < fuel -> rbt_next fuel h a = Some (hd 0 Y).
Proof.
  intros h t X a Y fuel S Q F. destruct (at_node h t X a Y S Q) as (k & c & l & r & -> & G & -> & ->). destruct G as [C P ND NZ]. cbn [ra rep occ] in *. destruct P as (P1 & P2 & P3). pose proof (height_plug k (T c l a r)) as HP. cbn [height] in HP.
  unfold rbt_next. destruct (Nat.eqb_spec a 0) as [-> | A]; [rewrite one_refl in NZ; lia|]. rewrite (right_eq _ _ _ P1). cbn [bind rg]. destruct (E_or r) as [-> | R].
  - cbn [ra elems app]. cbn [Nat.eqb negb]. eapply climb_next_spec; [exact C | exact P1 | reflexivity | | lia | lia]. intro y. specialize (ND y). lia.
  - rewrite (proj2 (Nat.eqb_neq _ _) (ra_nz r R ltac:(lia))). cbn [negb]. rewrite (go_left_spec r fuel h a P3 ltac:(lia) R ltac:(lia)). rewrite hd_app; [reflexivity|]. destruct r; [congruence | apply elems_ne].
Qed.
Theorem prev_spec : forall h t X a Y fuel, stores h t -> elems t = X ++ a :: Y -> height t < fuel -> rbt_prev fuel h a = Some (last X 0).
Proof.
  intros h t X a Y fuel S Q F. destruct (at_node h t X a Y S Q) as (k & c & l & r & -> & G & -> & ->). destruct G as [C P ND NZ]. cbn [ra rep occ] in *. destruct P as (P1 & P2 & P3). pose proof (height_plug k (T c l a r)) as HP. cbn [height] in HP.
  unfold rbt_prev. destruct (Nat.eqb_spec a 0) as [-> | A]; [rewrite one_refl in NZ; lia|]. rewrite (left_eq _ _ _ P1). cbn [bind lf]. destruct (E_or l) as [-> | R].
  - cbn [ra elems]. rewrite app_nil_r. cbn [Nat.eqb negb]. eapply climb_prev_spec; [exact C | exact P1 | reflexivity | | lia | lia]. intro y. specialize (ND y). lia.
  - rewrite (proj2 (Nat.eqb_neq _ _) (ra_nz l R ltac:(lia))). cbn [negb]. rewrite (go_right_spec l fuel h a P2 ltac:(lia) R ltac:(lia)). rewrite last_app; [reflexivity|]. destruct l; [congruence | apply elems_ne].
Qed.
Theorem first_spec : forall h t fuel, stores h t -> height t < fuel -> rbt_first fuel h = Some (hd 0 (elems t)).
Proof.
  intros h t fuel S F. apply stores_good in S. destruct S as [C P ND NZ]. cbn [rep_ctx par cocc] in *. unfold rbt_first. rewrite C. destruct (E_or t) as [-> | N]; [reflexivity|]. rewrite (proj2 (Nat.eqb_neq _ _) (ra_nz t N ltac:(lia))).
  apply (go_left_spec t fuel h 0 P); [lia | exact N | lia].
Qed.
Theorem last_spec : forall h t fuel, stores h t -> height t < fuel -> rbt_last fuel h = Some (last (elems t) 0).
Proof.
  intros h t fuel S F. apply stores_good in S. destruct S as [C P ND NZ]. cbn [rep_ctx par cocc] in *. unfold rbt_last. rewrite C. destruct (E_or t) as [-> | N]; [reflexivity|]. rewrite (proj2 (Nat.eqb_neq _ _) (ra_nz t N ltac:(lia))).
  apply (go_right_spec t fuel h 0 P); [lia | exact N | lia].
Qed.
Theorem visit_spec : forall h t fuel steps, stores h t -> height t < fuel -> length (elems t) <= steps -> visit_all steps fuel h = Some (elems t).
Proof.
  intros h t fuel steps S F L. unfold visit_all. rewrite (first_spec h t fuel S F). cbn [bind].
  assert (G : forall Y X steps, elems t = X ++ Y -> length Y <= steps -> visit steps fuel h (hd 0 Y) = Some Y).
  { clear L steps. induction Y as [|a Y IH]; intros X steps Q L; [destruct steps; reflexivity|]. destruct steps as [|k]; [cbn in L; lia|]. cbn [hd visit length] in *.
    assert (A : a <> 0). { destruct S as (_ & _ & _ & Z). intros ->. apply Z. rewrite Q. apply in_or_app. right. left. reflexivity. } rewrite (proj2 (Nat.eqb_neq _ _) A).
    rewrite (next_spec h t X a Y fuel S Q F). cbn [bind]. rewrite (IH (X ++ [a]) k); [reflexivity | rewrite <- app_assoc; exact Q | lia]. }
  apply (G (elems t) [] steps); [reflexivity | exact L].
Qed.

(** ** Height *)
Lemma wf_size : forall t n, wf t n -> 2 ^ n <= S (length (elems t)).
Proof.
  intros t n W. induction W; cbn [elems]; rewrite ?app_length; cbn [length]; [reflexivity | rewrite Nat.pow_succ_r' ; lia | lia].
Qed.
Lemma wf_height : forall t n, wf t n -> height t <= 2 * n + (if is_black t then 0 else 1).
Proof.
  intros t n W. induction W; cbn [height is_black]; [lia| |]; [destruct (is_black l), (is_black r); lia|]. rewrite H, H0 in *. lia.
Qed.
Theorem height_log : forall t, balanced t -> height t <= 2 * Nat.log2 (S (length (elems t))).
Proof.
  intros t (B & n & W). pose proof (wf_size t n W) as A. pose proof (wf_height t n W) as C. rewrite B in C. assert (n <= Nat.log2 (S (length (elems t)))) by (apply Nat.log2_le_pow2; lia). lia.
Qed.
