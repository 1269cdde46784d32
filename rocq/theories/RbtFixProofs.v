From Coq Require Import List Bool Arith ZArith Lia Sorted.
Import ListNotations.
From Verif Require Import RbtModel RbtSpec RbtProofs.

Ltac blacks := repeat match goal with
  | H : is_black (T ?c _ _ _) = true |- _ => progress cbn [is_black] in H
  | H : false = true |- _ => discriminate H
  | H : wf (T false _ _ _) _ |- _ => inversion H; clear H; subst
  | H : wf (T true _ _ _) (S _) |- _ => inversion H; clear H; subst
  | H : wf E (S _) |- _ => inversion H
  end.
Ltac finish' k t := eexists; split; [reflexivity|]; exists (plug k t); split; [apply good_stores; goodify|]; split; [cbn [plug]; try apply elems_plug; assoc|]; split; [eapply (plug_balanced k t); [wfs | first [left; reflexivity | right; reflexivity] | first [eassumption | apply cw_nil]] | agfin].
Ltac red_child t U w V := destruct t as [|[] U w V]; [discriminate | discriminate |]; cbn [occ ra] in *; split_rep; blacks.
Ltac climb' IH k N :=
  match goal with |- exists h', fixup_loop _ ?h _ _ = _ /\ _ =>
    let G := fresh "G" in assert (G : good h k N) by goodify;
    edestruct IH with (3 := G) as (h' & E' & t' & S1 & S2 & S3 & S4); [cbn [length] in *; lia | assumption | wfs | reflexivity | eassumption |];
    exists h'; split; [exact E'|]; exists t'; split; [exact S1|]; split; [rewrite S2; cbn [plug]; try apply elems_plug; assoc|]; split; [exact S3|];
    let y := fresh "y" in let Y := fresh "Y" in intros y Y; rewrite S4; [|cbn [occ cocc] in *; lia]; match goal with AG : forall y, _ = 0 -> mem h y = _ |- _ => apply AG; cbn [occ cocc] in *; lia end
  end.
(** make the node [s] with its left (right) subtree part of the context *)
Ltac fold_ctx s := match goal with
  | C : rep_ctx (mem ?h) (root ?h) ?k s, M : mem ?h s = Some {| lf := ?p; rg := ra ?t; pa := par ?k; bl := ?c |}, P : rep (mem ?h) s ?t, M' : mem ?h ?p = Some _ |- _ =>
      let H := fresh "C" in assert (H : rep_ctx (mem h) (root h) (FL c s t :: k) p) by (cbn [rep_ctx]; auto); clear C M P; change s with (par (FL c s t :: k)) in M'
  | C : rep_ctx (mem ?h) (root ?h) ?k s, M : mem ?h s = Some {| lf := ra ?t; rg := ?p; pa := par ?k; bl := ?c |}, P : rep (mem ?h) s ?t, M' : mem ?h ?p = Some _ |- _ =>
      let H := fresh "C" in assert (H : rep_ctx (mem h) (root h) (FR c s t :: k) p) by (cbn [rep_ctx]; auto); clear C M P; change s with (par (FR c s t :: k)) in M'
  end.
Lemma root_or : forall k : ctx, k = [] \/ k <> [].
Proof. intros [|f k]; [left; reflexivity | right; discriminate]. Qed.
Lemma par_nz : forall k, k <> [] -> cocc 0 k = 0 -> par k <> 0.
Proof. intros k N Z Q. destruct (par_occ k) as [-> | H]; [congruence|]. rewrite Q in H. lia. Qed.
Lemma fixup_spec : forall fuel k N h m b, length k <= fuel -> k <> [] -> good h k N -> wf N m -> is_black N = true -> cwf k (S m) b ->
  exists h', fixup_loop fuel h (ra N) (par k) = Some h' /\ result h h' k N.
Proof.
  induction fuel as [|f IH]; intros k N h m b F KN G WN BN CW; [destruct k; [congruence | cbn in F; lia]|]. remember h as h0 eqn:H0 in |- * at 2.
  assert (AG : forall y, occ y N + cocc y k = 0 -> mem h y = mem h0 y) by (subst; reflexivity). clear H0.
  destruct k as [|f1 k]; [congruence|]. clear KN. destruct G as [C P ND NZ]. cbn [fixup_loop length] in *.
  inversion CW; subst; clear CW.
  - match goal with H : wf r (S m) |- _ => destruct r as [|[] sl s sr]; inversion H; subst; clear H end; cbn [occ cocc par] in *; split_rep.
    + go. destruct (is_black sr) eqn:BR; cbn [negb].
      * go. destruct (is_black sl) eqn:BL; cbn [negb].
        { go. destruct (root_or k) as [-> | KN].
          - cbn [par]. cbn [Nat.eqb]. finish' ([] : ctx) (T true N x (T false sl s sr)).
          - rewrite (proj2 (Nat.eqb_neq _ _) (par_nz k KN ltac:(zero))). climb' IH k (T true N x (T false sl s sr)). }
        { red_child sl U w V. go. finish' k (T true (T true N x U) w (T true V s sr)). }
      * red_child sr U w V. go. finish' k (T true (T true N x sl) s (T true U w V)).
    + (* red sibling *)
      destruct sl as [|[] a1 t1 a2]; blacks. cbn [occ ra] in *. split_rep. go.
      destruct (is_black a2) eqn:BR; cbn [negb].
      * go. destruct (is_black a1) eqn:BL; cbn [negb].
        { go. finish' k (T true (T true N x (T false a1 t1 a2)) s sr). }
        { red_child a1 U w V. fold_ctx s. go. split_rep. finish' k (T true (T false (T true N x U) w (T true V t1 a2)) s sr). }
      * red_child a2 U w V. fold_ctx s. go. split_rep. finish' k (T true (T false (T true N x a1) t1 (T true U w V)) s sr).
  - match goal with H : wf l (S m) |- _ => destruct l as [|[] sl s sr]; inversion H; subst; clear H end; cbn [occ cocc par] in *; split_rep.
    + go. destruct (is_black sl) eqn:BL; cbn [negb].
      * go. destruct (is_black sr) eqn:BR; cbn [negb].
        { go. destruct (root_or k) as [-> | KN].
          - cbn [par]. cbn [Nat.eqb]. finish' ([] : ctx) (T true (T false sl s sr) x N).
          - rewrite (proj2 (Nat.eqb_neq _ _) (par_nz k KN ltac:(zero))). climb' IH k (T true (T false sl s sr) x N). }
        { red_child sr U w V. go. finish' k (T true (T true sl s U) w (T true V x N)). }
      * red_child sl U w V. go. finish' k (T true (T true U w V) s (T true sr x N)).
    + (* red sibling *)
      destruct sr as [|[] a1 t1 a2]; blacks. cbn [occ ra] in *. split_rep. go.
      destruct (is_black a1) eqn:BL; cbn [negb].
      * go. destruct (is_black a2) eqn:BR; cbn [negb].
        { go. finish' k (T true sl s (T true (T false a1 t1 a2) x N)). }
        { red_child a2 U w V. fold_ctx s. go. split_rep. finish' k (T true sl s (T false (T true a1 t1 U) w (T true V x N))). }
      * red_child a1 U w V. fold_ctx s. go. split_rep. finish' k (T true sl s (T false (T true U w V) t1 (T true a2 x N))).
  - match goal with H : wf r (S m) |- _ => destruct r as [|[] sl s sr]; inversion H; subst; clear H end; cbn [occ cocc par] in *; [|discriminate]; split_rep.
    + go. destruct (is_black sr) eqn:BR; cbn [negb].
      * go. destruct (is_black sl) eqn:BL; cbn [negb].
        { go. finish' k (T true N x (T false sl s sr)). }
        { red_child sl U w V. go. finish' k (T false (T true N x U) w (T true V s sr)). }
      * red_child sr U w V. go. finish' k (T false (T true N x sl) s (T true U w V)).
  - match goal with H : wf l (S m) |- _ => destruct l as [|[] sl s sr]; inversion H; subst; clear H end; cbn [occ cocc par] in *; [|discriminate]; split_rep.
    + go. destruct (is_black sl) eqn:BL; cbn [negb].
      * go. destruct (is_black sr) eqn:BR; cbn [negb].
        { go. finish' k (T true (T false sl s sr) x N). }
        { red_child sr U w V. go. finish' k (T false (T true sl s U) w (T true V x N)). }
      * red_child sl U w V. go. finish' k (T false (T true U w V) s (T true sr x N)).
Qed.
