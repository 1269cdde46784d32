From Coq Require Import List Bool Arith ZArith Lia Sorted.
Import ListNotations.
From Verif Require Import RbtModel RbtSpec RbtProofs RbtFixProofs.

(** ** Order of a context *)
Fixpoint pre (k : ctx) : list nat := match k with [] => [] | FL _ _ _ :: k => pre k | FR _ x l :: k => pre k ++ elems l ++ [x] end.
Fixpoint post (k : ctx) : list nat := match k with [] => [] | FL _ x r :: k => x :: elems r ++ post k | FR _ _ _ :: k => post k end.
Lemma elems_ctx : forall k t, elems (plug k t) = pre k ++ elems t ++ post k.
Proof.
  induction k as [|[c x r|c x l] k IH]; intro t; cbn [plug pre post]; [rewrite app_nil_r; reflexivity| |]; rewrite IH; cbn [elems]; rewrite <- ?app_assoc; cbn [app]; rewrite <- ?app_assoc; reflexivity.
Qed.
Lemma plug_app : forall k1 k2 t, plug (k1 ++ k2) t = plug k2 (plug k1 t).
Proof. induction k1 as [|[c x r|c x l] k1 IH]; intros k2 t; cbn [app plug]; auto. Qed.
Lemma cocc_app : forall k1 k2 x, cocc x (k1 ++ k2) = cocc x k1 + cocc x k2.
Proof. induction k1 as [|[c a r|c a l] k1 IH]; intros k2 x; cbn [app cocc]; [reflexivity| |]; rewrite IH; lia. Qed.
Lemma pre_app : forall k1 k2, pre (k1 ++ k2) = pre k2 ++ pre k1.
Proof. induction k1 as [|[c a r|c a l] k1 IH]; intros k2; cbn [app pre]; [rewrite app_nil_r; reflexivity | apply IH | rewrite IH, <- app_assoc; reflexivity]. Qed.
Lemma post_app : forall k1 k2, post (k1 ++ k2) = post k1 ++ post k2.
Proof. induction k1 as [|[c a r|c a l] k1 IH]; intros k2; cbn [app post]; [reflexivity | rewrite IH, <- app_assoc; reflexivity | apply IH]. Qed.

(** ** Segments of a context *)
Definition spar (q : nat) (k : ctx) : nat := match k with [] => q | _ => par k end.
Fixpoint top (k : ctx) (a : nat) : nat := match k with [] => a | FL _ x _ :: k => top k x | FR _ x _ :: k => top k x end.
Fixpoint rep_seg (m : memory) (q : nat) (k : ctx) (a : nat) : Prop :=
  match k with
  | [] => True
  | FL c x r :: k => m x = Some {| lf := a; rg := ra r; pa := spar q k; bl := c |} /\ rep m x r /\ rep_seg m q k x
  | FR c x l :: k => m x = Some {| lf := ra l; rg := a; pa := spar q k; bl := c |} /\ rep m x l /\ rep_seg m q k x
  end.
Lemma spar_app : forall k1 k2, spar (par k2) k1 = par (k1 ++ k2). Proof. intros [|f k1] k2; reflexivity. Qed.
Lemma rep_ctx_app : forall k1 k2 m R a, rep_ctx m R (k1 ++ k2) a <-> rep_seg m (par k2) k1 a /\ rep_ctx m R k2 (top k1 a).
Proof.
  induction k1 as [|[c x r|c x l] k1 IH]; intros k2 m R a; cbn [app rep_ctx rep_seg top]; [tauto| |]; rewrite IH, spar_app; tauto.
Qed.
Lemma rep_seg_frame : forall k m m' q a, (forall y, 0 < cocc y k -> m' y = m y) -> rep_seg m q k a -> rep_seg m' q k a.
Proof.
  induction k as [|[c x t|c x t] k IH]; intros m m' q a H P; cbn [rep_seg cocc] in *; [exact P| |]; destruct P as (P1 & P2 & P3); (split; [rewrite H; [exact P1 | rewrite one_refl; lia]|]); (split; [apply (rep_frame m); [intros y Y; apply H; lia | exact P2] | apply (IH m); [intros y Y; apply H; lia | exact P3]]).
Qed.
Lemma rep_seg_plug : forall k m q t, rep m q (plug k t) <-> rep_seg m q k (ra t) /\ rep m (spar q k) t.
Proof.
  induction k as [|[c x r|c x l] k IH]; intros m q t; cbn [plug rep_seg spar par]; [tauto| |]; rewrite IH; cbn [ra rep]; tauto.
Qed.
Lemma ra_plug : forall k t, ra (plug k t) = top k (ra t).
Proof. induction k as [|[c x r|c x l] k IH]; intro t; cbn [plug top]; [reflexivity| |]; rewrite IH; reflexivity. Qed.
Lemma top_occ : forall k a, k <> [] -> 0 < cocc (top k a) k.
Proof.
  induction k as [|f k IH]; intros a N; [congruence|]. destruct (root_or k) as [-> | K].
  - destruct f; cbn [top cocc]; rewrite one_refl; lia.
  - destruct f as [c x t|c x t]; cbn [top cocc]; specialize (IH x K); lia.
Qed.
(** changing the parent of the topmost node *)
Lemma seg_parent_spec : forall k h q q' a, rep_seg (mem h) q k a -> k <> [] -> (forall x, cocc x k <= 1) ->
  exists h', set_parent h (top k a) q' = Some h' /\ root h' = root h /\ rep_seg (mem h') q' k a /\ forall y, y <> top k a -> mem h' y = mem h y.
Proof.
  induction k as [|f k IH]; intros h q q' a S N ND; [congruence|]. destruct (root_or k) as [-> | K].
  - destruct f as [c x t|c x t]; cbn [rep_seg top spar] in *; destruct S as (S1 & S2 & _); destruct (set_parent_spec h x q' _ S1) as (h' & E & W1 & W2 & W3); exists h'; (split; [exact E|]); (split; [exact W1|]); (split; [split; [exact W2 | split; [|exact Logic.I]] | exact W3]); apply (rep_frame (mem h)); auto; intros y Y; apply W3; intros ->; specialize (ND x); cbn [cocc] in ND; rewrite one_refl in ND; lia.
  - destruct f as [c x t|c x t]; cbn [rep_seg top] in *; destruct S as (S1 & S2 & S3).
    + destruct (IH h q q' x S3 K) as (h' & E & R & P & F); [intro y; specialize (ND y); cbn [cocc] in ND; lia|]. exists h'. split; [exact E|]. split; [exact R|]. pose proof (top_occ k x K) as TO. pose proof (ND (top k x)) as NT. cbn [cocc] in NT.
      split; [|exact F]. split; [|split; [|exact P]].
      * rewrite F; [|intros Q; rewrite <- Q in NT; rewrite one_refl in NT; rewrite <- Q in TO; lia]. rewrite S1. destruct k; [congruence | reflexivity].
      * apply (rep_frame (mem h)); [|exact S2]. intros y Y. apply F. intros ->. lia.
    + destruct (IH h q q' x S3 K) as (h' & E & R & P & F); [intro y; specialize (ND y); cbn [cocc] in ND; lia|]. exists h'. split; [exact E|]. split; [exact R|]. pose proof (top_occ k x K) as TO. pose proof (ND (top k x)) as NT. cbn [cocc] in NT.
      split; [|exact F]. split; [|split; [|exact P]].
      * rewrite F; [|intros Q; rewrite <- Q in NT; rewrite one_refl in NT; rewrite <- Q in TO; lia]. rewrite S1. destruct k; [congruence | reflexivity].
      * apply (rep_frame (mem h)); [|exact S2]. intros y Y. apply F. intros ->. lia.
Qed.
(** all frames go left *)
Fixpoint lefts (k : ctx) : Prop := match k with [] => True | FL _ _ _ :: k => lefts k | FR _ _ _ :: _ => False end.
Lemma lefts_pre : forall k, lefts k -> pre k = []. Proof. induction k as [|[c x r|c x l] k IH]; cbn [lefts pre]; auto. contradiction. Qed.
Lemma lefts_snoc : forall k c x r, lefts k -> lefts (k ++ [FL c x r]).
Proof. induction k as [|[c0 x0 r0|c0 x0 r0] k IH]; intros c x r L; cbn [lefts app] in *; auto. Qed.
Lemma seg_left_spec : forall k h q a v, rep_seg (mem h) q k a -> k <> [] -> lefts k -> (forall x, cocc x k <= 1) ->
  exists h', set_left h (par k) v = Some h' /\ root h' = root h /\ rep_seg (mem h') q k v /\ forall y, y <> par k -> mem h' y = mem h y.
Proof.
  intros [|[c x t|c x t] k] h q a v S N L ND; [congruence| |contradiction]. cbn [rep_seg par] in *. destruct S as (S1 & S2 & S3). destruct (set_left_spec h x v _ S1) as (h' & E & W1 & W2 & W3). exists h'. split; [exact E|]. split; [exact W1|]. split; [|exact W3].
  specialize (ND x). cbn [cocc] in ND. rewrite one_refl in ND. split; [exact W2|]. split; [apply (rep_frame (mem h)); [|exact S2] | apply (rep_seg_frame k (mem h)); [|exact S3]]; intros y Y; apply W3; intros ->; lia.
Qed.
Lemma leftmost_spec : forall l fuel h p, rep (mem h) p l -> l <> E -> occ 0 l = 0 -> height l <= fuel ->
  exists k sc s sr, l = plug k (T sc E s sr) /\ lefts k /\ leftmost fuel h p (ra l) = Some (spar p k, s).
Proof.
  induction l as [|c l IH a r _]; intros fuel h p P N Z F; [congruence|]. destruct fuel as [|f]; [cbn in F; lia|]. cbn [rep occ height] in *. destruct P as (P1 & P2 & P3). cbn [ra leftmost]. unfold left. rewrite P1. cbn [option_map bind lf].
  destruct l as [|c' l' a' r']; [cbn [ra]; cbn [Nat.eqb]; exists [], c, a, r; cbn [plug lefts spar]; auto|].
  destruct (IH f h a P2 ltac:(discriminate) ltac:(lia) ltac:(lia)) as (k & sc & s & sr & E1 & L & E2). rewrite E1 in *.
  assert (NZ : ra (plug k (T sc E s sr)) <> 0). { rewrite <- E1. cbn [ra]. intros ->. rewrite <- E1 in Z. cbn [occ] in Z. rewrite one_refl in Z. lia. }
  rewrite (proj2 (Nat.eqb_neq _ _) NZ), E2. exists (k ++ [FL c a r]), sc, s, sr. rewrite plug_app. cbn [plug]. split; [reflexivity|]. split; [apply lefts_snoc; exact L|]. destruct k as [|[]]; reflexivity.
Qed.
Lemma cwf_rename : forall k1 c n s L k m b, cwf (k1 ++ FR c n L :: k) m b -> cwf (k1 ++ FR c s L :: k) m b.
Proof.
  induction k1 as [|f k1 IH]; intros c n s L k m b H; cbn [app] in *.
  - inversion H; subst; [eapply cw_RB; eassumption | apply cw_RR; assumption].
  - inversion H; subst; [eapply cw_LB | eapply cw_RB | apply cw_LR | apply cw_RR]; eauto.
Qed.

Lemma height_plug : forall k t, length k + height t <= height (plug k t).
Proof. induction k as [|[c x r|c x l] k IH]; intro t; cbn [length plug]; [lia| |]; (eapply Nat.le_trans; [|apply IH]); cbn [height]; lia. Qed.
(** [n] is gone, everything else is there *)
Definition gone (h0 h : heap) (k : ctx) (c : bool) (L : tree) (n : nat) (R : tree) : Prop :=
  exists t', stores h t' /\ elems t' = pre k ++ elems L ++ elems R ++ post k /\ balanced t' /\ forall y, occ y (T c L n R) + cocc y k = 0 -> mem h y = mem h0 y.

Ltac seg_move h h' SOLVE := repeat match goal with
  | ND : forall x, _ <= 1, H : rep_seg (mem h) ?q ?k ?v |- _ => apply (rep_seg_frame k (mem h) (mem h') q v) in H; [|let y := fresh "y" in let Y := fresh "Y" in intros y Y; SOLVE y Y]
  end.
Ltac move_wrote h h' a W1 W3 ::=
  repeat match goal with
  | H : mem h a = Some _ |- _ => clear H
  | H : mem h ?x = Some _ |- _ => rewrite <- (W3 x) in H by neq
  | ND : forall x, _ <= 1, H : rep (mem h) ?p ?t |- _ => apply (rep_frame (mem h) (mem h') t p) in H; [|ag1 ND a W3]
  | ND : forall x, _ <= 1, H : rep_ctx (mem h) (root h) ?k ?v |- _ => apply (rep_ctx_frame k (mem h) (mem h') (root h) v) in H; [rewrite <- W1 in H|ag1 ND a W3]
  | ND : forall x, _ <= 1, H : rep_seg (mem h) ?q ?k ?v |- _ => apply (rep_seg_frame k (mem h) (mem h') q v) in H; [|ag1 ND a W3]
  | AG : forall y, _ = 0 -> mem h y = _ |- _ =>
      let AG' := fresh "AG" in
      match type of AG with forall y, @?s y = 0 -> _ = @?q y =>
        assert (AG' : forall y, s y = 0 -> mem h' y = q y);
        [ let y := fresh "y" in let Y := fresh "Y" in intros y Y; cbv beta in Y; rewrite W3; [exact (AG y Y) | let Q := fresh in intro Q; rewrite ?Q in Y; rewrite ?one_refl in Y; lia]
        | cbv beta in AG'; clear AG ] end
  end.
(** a write to a node [a] of the context [K] *)
Ltac move_seg h h' a K OX W1 W3 :=
  repeat match goal with
  | ND : forall x, _ <= 1, H : mem h ?x = Some _ |- _ => rewrite <- (W3 x) in H by (let Q := fresh in let Y := fresh in let Z := fresh in intro Q; pose proof (ND x) as Y; pose proof OX as Z; rewrite <- Q in Z; rewrite ?one_refl in Y; lia)
  | ND : forall x, _ <= 1, H : rep (mem h) ?p ?t |- _ => apply (rep_frame (mem h) (mem h') t p) in H; [|let y := fresh in let Y := fresh in let Q := fresh in intros y Y; apply W3; intro Q; rewrite Q in Y; at_ ND a]
  | ND : forall x, _ <= 1, H : rep_ctx (mem h) (root h) ?k ?v |- _ => apply (rep_ctx_frame k (mem h) (mem h') (root h) v) in H; [rewrite <- W1 in H|let y := fresh in let Y := fresh in let Q := fresh in intros y Y; apply W3; intro Q; rewrite Q in Y; at_ ND a]
  | AG : forall y, _ = 0 -> mem h y = _ |- _ =>
      let AG' := fresh "AG" in
      match type of AG with forall y, @?s y = 0 -> _ = @?q y =>
        assert (AG' : forall y, s y = 0 -> mem h' y = q y);
        [ let y := fresh "y" in let Y := fresh "Y" in intros y Y; cbv beta in Y; rewrite W3; [exact (AG y Y) | let Q := fresh in let Z := fresh in intro Q; pose proof OX as Z; rewrite <- Q in Z; lia]
        | cbv beta in AG'; clear AG ] end
  end.
Ltac chg := let e := hd in lazymatch e with change_child ?h ?old ?new (par ?k) =>
  match goal with C : rep_ctx (mem h) (root h) k old |- _ =>
    let h' := fresh "h" in let E := fresh in let W1 := fresh "W" in let W2 := fresh "W" in
    destruct (change_child_spec h k old new C ltac:(zero) ltac:(zero) ltac:(zero) ltac:(neq)) as (h' & E & W1 & W2);
    rewrite E; clear E C; cbn [bind];
    repeat match goal with
    | H : mem h ?x = Some _ |- _ => rewrite <- (W2 x) in H by zero
    | ND : forall x, _ <= 1, H : rep (mem h) ?p ?u |- _ => apply (rep_frame (mem h) (mem h') u p) in H; [|let y := fresh "y" in let Y := fresh "Y" in intros y Y; cbn [occ cocc] in Y; apply W2; at_ ND y]
    | ND : forall x, _ <= 1, H : rep_seg (mem h) ?q ?k ?v |- _ => apply (rep_seg_frame k (mem h) (mem h') q v) in H; [|let y := fresh "y" in let Y := fresh "Y" in intros y Y; apply W2; at_ ND y]
    | AG : forall y, _ = 0 -> mem h y = _ |- _ =>
          let AG' := fresh "AG" in
          match type of AG with forall y, @?s y = 0 -> _ = @?q y =>
            assert (AG' : forall y, s y = 0 -> mem h' y = q y);
            [ let y := fresh "y" in let Y := fresh "Y" in intros y Y; cbv beta in Y; rewrite W2; [exact (AG y Y) | lia]
            | cbv beta in AG'; clear AG ] end
    end; clear W2; try clear h
  end end.
Ltac goodify ::= constructor; [cbn [rep rep_ctx ra par]; repeat (split; try eassumption); try eassumption | cbn [rep ra par]; repeat (split; try eassumption) | let x := fresh in intro x; match goal with ND : forall x, _ <= 1 |- _ => pose proof (ND x) end; cbn [occ cocc]; lia | cbn [occ cocc]; lia].
Ltac go' := repeat first [cmp | rd | (wr; cbn [bind]) | (wsub; pb) | chg].
Ltac assoc' := rewrite ?elems_ctx, ?pre_app, ?post_app; cbn [pre post elems]; rewrite ?app_nil_r, <- ?app_assoc; cbn [app]; rewrite <- ?app_assoc; cbn [app]; reflexivity.
Ltac over k t := eexists; split; [reflexivity|]; exists (plug k t); split; [apply good_stores; goodify|]; split; [assoc'|]; split; [eapply (plug_balanced k t); [wfs | first [left; reflexivity | right; reflexivity | eassumption] | first [eassumption | apply cw_nil]] | agfin].
(** continue with the rebalancing of the black leaf hole of [k] *)
Ltac fixit k :=
  match goal with |- exists h', fixup_loop ?f ?h 0 _ = _ /\ _ =>
    let G := fresh "G" in assert (G : good h k E) by goodify;
    edestruct (fixup_spec f k E) with (3 := G) as (h' & E' & t' & S1 & S2 & S3 & S4); [cbn [length height] in *; lia | auto; discriminate | apply wf_E | reflexivity | eassumption |];
    exists h'; split; [exact E'|]; exists t'; split; [exact S1|]; split; [rewrite S2; assoc'|]; split; [exact S3|];
    let y := fresh "y" in let Y := fresh "Y" in intros y Y; rewrite S4; [|cbn [occ cocc] in *; lia]; match goal with AG : forall y, _ = 0 -> mem h y = _ |- _ => apply AG; cbn [occ cocc] in *; lia end
  end.
Lemma E_or : forall t, t = E \/ t <> E. Proof. intros [|]; [auto | right; discriminate]. Qed.
Lemma ra_nz : forall t, t <> E -> occ 0 t = 0 -> ra t <> 0.
Proof. intros t N Z Q. destruct (ra_occ t) as [-> | H]; [congruence|]. rewrite Q in H. lia. Qed.
Lemma rbt_remove_spec : forall fuel k c L n R h, height (plug k (T c L n R)) < fuel -> good h k (T c L n R) -> balanced (plug k (T c L n R)) ->
  exists h', rbt_remove fuel h n = Some h' /\ gone h h' k c L n R.
Proof.
  intros fuel k c L n R h F G B. destruct (wf_down _ _ B) as (m & b & W & CW & BB). pose proof (height_plug k (T c L n R)) as HP. cbn [height] in HP.
  remember h as h0 eqn:H0 in |- * at 2. assert (AG : forall y, occ y (T c L n R) + cocc y k = 0 -> mem h y = mem h0 y) by (subst; reflexivity). clear H0.
  destruct G as [C P ND NZ]. cbn [ra] in C. unfold rbt_remove. cbn [occ] in *. cbn [rep] in P. destruct P as (M & P1 & P2).
  destruct L as [|lc l1 l l2].
  - destruct R as [|rc r1 r r2].
    + cbn [ra occ] in *. go'. inversion W; subst.
      * destruct (root_or k) as [-> | KN].
        -- cbn [par] in *. go'. over ([] : ctx) E.
        -- rewrite (proj2 (Nat.eqb_neq _ _) (par_nz k KN ltac:(zero))). cbn [negb]. match goal with H : wf E ?x |- _ => inversion H; subst end. fixit k.
      * cbn [is_black] in BB. destruct BB as [BB | ->]; [discriminate|]. go'. over k E.
    + assert (c = true /\ rc = false /\ m = 1) as (-> & -> & ->).
      { inversion W; subst; match goal with H : wf E _ |- _ => inversion H; subst end; destruct rc; auto; try discriminate; match goal with H : wf (T true _ _ _) 0 |- _ => inversion H end. }
      inversion W; subst. blacks. cbn [ra occ] in *. split_rep. go'. over k (T true r1 r r2).
  - destruct R as [|rc r1 r r2].
    + assert (c = true /\ lc = false /\ m = 1) as (-> & -> & ->).
      { inversion W; subst; match goal with H : wf E _ |- _ => inversion H; subst end; destruct lc; auto; try discriminate; match goal with H : wf (T true _ _ _) 0 |- _ => inversion H end. }
      inversion W; subst. blacks. cbn [ra occ] in *. split_rep. go'. over k (T true l1 l l2).
    + destruct (E_or r1) as [-> | N1].
      * (* the right child is the successor *)
        cbn [ra occ] in *. split_rep. go'.
        destruct r2 as [|rc2 r3 x r4].
        -- cbn [ra occ] in *. go'. inversion W; subst; clear W.
           ++ match goal with H : wf (T rc _ _ _) _ |- _ => inversion H; subst; clear H end; match goal with H : wf E ?x |- _ => inversion H; subst end.
              ** assert (CW2 : cwf (FR true r (T lc l1 l l2) :: k) 1 true) by (eapply cw_RB; eassumption). go'. fixit (FR true r (T lc l1 l l2) :: k).
              ** go'. over k (T true (T lc l1 l l2) r E).
           ++ match goal with H : wf (T rc _ _ _) _ |- _ => inversion H; subst; clear H end; match goal with H : wf E ?x |- _ => inversion H; subst end; blacks.
              cbn [is_black] in BB. destruct BB as [BB | ->]; [discriminate|].
              assert (CW2 : cwf (FR false r (T lc l1 l l2) :: k) 1 false) by (apply cw_RR; assumption). go'. fixit (FR false r (T lc l1 l l2) :: k).
        -- assert (rc = true /\ rc2 = false) as (-> & ->).
           { inversion W; subst; match goal with H : wf (T rc _ _ _) _ |- _ => inversion H; subst; clear H end; match goal with H : wf E _ |- _ => inversion H; subst end; destruct rc2; auto; try discriminate; match goal with H : wf (T true _ _ _) 0 |- _ => inversion H end. }
           cbn [ra occ] in *. split_rep. go'. inversion W; subst; match goal with H : wf (T true E _ _) _ |- _ => inversion H; subst end; blacks.
           ++ over k (T true (T lc l1 l l2) r (T true r3 x r4)).
           ++ cbn [is_black] in BB; destruct BB as [BB | ->]; [discriminate|]. over k (T false (T true l1 l l2) r (T true r3 x r4)).
      * (* the successor is deeper *)
        cbn [ra occ rep] in *. destruct P2 as (M2 & P2 & P3). rd. rd. cmp. cmp. rd. rewrite (proj2 (Nat.eqb_neq _ _) (ra_nz r1 N1 ltac:(zero))).
        destruct (leftmost_spec r1 fuel h r P2 N1 ltac:(zero)) as (k2 & sc & s & sr & E1 & LF & E2); [cbn [height] in *; lia|]. rewrite E2. cbn [bind]. clear E2 N1.
        set (K := k2 ++ [FL rc r r2]). replace (spar r k2) with (par K) by (unfold K; destruct k2 as [|[]]; reflexivity).
        assert (SEG : rep_seg (mem h) n K s /\ rep (mem h) (par K) (T sc E s sr)).
        { replace (par K) with (spar n K) by (unfold K; destruct k2 as [|[]]; reflexivity). change s with (ra (T sc E s sr)) at 1. apply rep_seg_plug. unfold K. rewrite plug_app. cbn [plug rep]. rewrite <- E1. auto. }
        destruct SEG as (SEG & PS). cbn [rep ra] in PS. destruct PS as (MS & _ & PSR).
        assert (LK : lefts K) by (apply lefts_snoc; exact LF). assert (KN : K <> []) by (unfold K; destruct k2; discriminate). assert (TK : forall v, top K v = r).
        { intro v. unfold K. clear. revert v. induction k2 as [|[c x t|c x t] k2 IH]; intro v; cbn [app top]; auto. }
        assert (OC : forall y, occ y r1 + one r y + occ y r2 = one s y + occ y sr + cocc y K).
        { intro y. rewrite E1, occ_plug. unfold K. rewrite cocc_app. cbn [occ cocc]. lia. }
        assert (EL : elems (T rc r1 r r2) = s :: elems sr ++ post K).
        { replace (T rc r1 r r2) with (plug K (T sc E s sr)) by (unfold K; rewrite plug_app; cbn [plug]; rewrite <- E1; reflexivity). rewrite elems_ctx, (lefts_pre K LK). reflexivity. }
        assert (TP : plug k (T c (T lc l1 l l2) n (T rc r1 r r2)) = plug (K ++ FR c n (T lc l1 l l2) :: k) (T sc E s sr)).
        { rewrite plug_app. cbn [plug]. unfold K. rewrite plug_app. cbn [plug]. rewrite <- E1. reflexivity. }
        rewrite TP in *. clearbody K. clear M2 P2 P3 E1 k2 LF TP.
        assert (ND' : forall x, occ x l1 + one l x + occ x l2 + one n x + (one s x + occ x sr + cocc x K) + cocc x k <= 1) by (intro y; rewrite <- OC; apply ND).
        assert (NZ' : occ 0 l1 + one l 0 + occ 0 l2 + one n 0 + (one s 0 + occ 0 sr + cocc 0 K) + cocc 0 k = 0) by (rewrite <- OC; exact NZ).
        assert (AG' : forall y, occ y l1 + one l y + occ y l2 + one n y + (one s y + occ y sr + cocc y K) + cocc y k = 0 -> mem h y = mem h0 y) by (intros y Y; apply AG; rewrite <- OC in Y; lia).
        clear ND NZ AG W CW BB. split_rep.
        assert (OP : 0 < cocc (par K) K) by (destruct (par_occ K) as [-> | ?]; [congruence | assumption]). assert (OT : 0 < cocc r K) by (rewrite <- (TK 0); apply top_occ; exact KN).
        rd. destruct (seg_left_spec K h n s (ra sr) SEG KN LK ltac:(zero)) as (h1 & E1 & W1 & SEG1 & W3). rewrite E1. cbn [bind]. clear E1 SEG. move_seg h h1 (par K) K OP W1 W3. clear W1 W3.
        wr. destruct (seg_parent_spec K h2 n s (ra sr) SEG1 KN ltac:(zero)) as (h3 & E3 & W1 & SEG & W3). rewrite TK in E3, W3. rewrite E3. cbn [bind]. clear E3 SEG1. move_seg h2 h3 r K OT W1 W3. clear W1 W3.
        set (L := T lc l1 l l2) in *.
        destruct (wf_down _ _ B) as (m' & b' & WS & CW & BB). apply (cwf_rename K c n s L k m' b') in CW. set (K' := K ++ FR c s L :: k) in *.
        assert (LN : length K' <= fuel). { unfold K'. rewrite app_length. pose proof (height_plug (K ++ FR c n L :: k) (T sc E s sr)) as X. rewrite app_length in X. cbn [length] in *. lia. }
        assert (GK : forall h2 v t, ra t = v -> rep_seg (mem h2) s K v -> rep_ctx (mem h2) (root h2) k s -> mem h2 s = Some {| lf := l; rg := r; pa := par k; bl := c |} -> mem h2 l = Some {| lf := ra l1; rg := ra l2; pa := s; bl := lc |} -> rep (mem h2) l l1 -> rep (mem h2) l l2 ->
          rep (mem h2) (par K) t -> (forall y, occ y t <= occ y sr) -> good h2 K' t).
        { intros h5 v t Hv A1 A2 A3 A4 A5 A6 A7 A8. constructor.
          - rewrite Hv. unfold K'. apply rep_ctx_app. rewrite TK. cbn [par rep_ctx]. split; [exact A1|]. split; [exact A3|]. split; [|exact A2]. cbn [rep L]. auto.
          - replace (par K') with (par K) by (unfold K'; destruct K as [|[]]; [congruence | reflexivity | reflexivity]). exact A7.
          - intro y. unfold K'. rewrite cocc_app. cbn [cocc]. unfold L. cbn [occ]. pose proof (ND' y). specialize (A8 y). lia.
          - unfold K'. rewrite cocc_app. cbn [cocc]. unfold L. cbn [occ]. specialize (A8 0). lia. }
        assert (EK : forall t, elems t = elems sr -> elems (plug K' t) = pre k ++ elems L ++ elems (T rc r1 r r2) ++ post k).
        { intros t Ht. rewrite elems_ctx, EL, Ht. unfold K'. rewrite pre_app, post_app, (lefts_pre K LK). cbn [pre post]. rewrite <- ?app_assoc. cbn [app]. rewrite <- ?app_assoc. reflexivity. }
        assert (OK' : forall y, occ y (T c L n (T rc r1 r r2)) + cocc y k = 0 -> occ y l1 + one l y + occ y l2 + one n y + (one s y + occ y sr + cocc y K) + cocc y k = 0).
        { intros y Y. unfold L in Y. cbn [occ] in Y. rewrite <- OC. lia. }
        destruct sr as [|xc x1 x x2]; cbn [ra occ rep] in *; split_rep; go'.
        -- inversion WS; subst; match goal with H : wf E _ |- _ => inversion H; subst; clear H end.
           ++ go'. rewrite (proj2 (Nat.eqb_neq _ _) (par_nz K KN ltac:(zero))). cbn [negb]. replace (par K) with (par K') by (unfold K'; destruct K as [|[]]; [congruence | reflexivity | reflexivity]).
              match goal with |- exists h', fixup_loop _ ?h5 _ _ = _ /\ _ => assert (G : good h5 K' E) by (eapply GK; try eassumption; try reflexivity; auto) end.
              edestruct (fixup_spec fuel K' E) with (3 := G) as (h' & E' & t' & S1 & S2 & S3 & S4); [exact LN | unfold K'; destruct K; discriminate | apply wf_E | reflexivity | eassumption |].
              exists h'. split; [exact E'|]. exists t'. split; [exact S1|]. split; [rewrite S2; apply EK; reflexivity|]. split; [exact S3|].
              intros y Y. apply OK' in Y. rewrite S4; [|cbn [occ]; unfold K'; rewrite cocc_app; cbn [cocc]; unfold L; cbn [occ]; lia]. match goal with AG : forall y, _ = 0 -> mem ?h y = _ |- mem ?h _ = _ => apply AG; exact Y end.
           ++ cbn [is_black] in BB. destruct BB as [BB | ->]; [discriminate|]. go'. eexists. split; [reflexivity|]. exists (plug K' E). split; [apply good_stores; eapply GK; try eassumption; try reflexivity; auto|]. split; [apply EK; reflexivity|]. split; [eapply plug_balanced; [apply wf_E | left; reflexivity | exact CW]|].
              intros y Y. apply OK' in Y. match goal with AG : forall y, _ = 0 -> mem ?h y = _ |- mem ?h _ = _ => apply AG; exact Y end.
        -- assert (sc = true /\ xc = false) as (-> & ->).
           { inversion WS; subst; match goal with H : wf E _ |- _ => inversion H; subst end; destruct xc; auto; try discriminate; match goal with H : wf (T true _ _ _) 0 |- _ => inversion H end. }
           inversion WS; subst; blacks. eexists. split; [reflexivity|]. exists (plug K' (T true x1 x x2)). split; [apply good_stores; eapply GK; try eassumption; try reflexivity; auto; cbn [rep]; auto|].
           split; [apply EK; reflexivity|]. split; [eapply plug_balanced; [wfs | left; reflexivity | exact CW]|].
           intros y Y. apply OK' in Y. match goal with AG : forall y, _ = 0 -> mem ?h y = _ |- mem ?h _ = _ => apply AG; exact Y end.
Qed.
