(** The simplification of constants keeps values; what stays between the parser
    and the grammar. *)
From Coq Require Import List Bool Arith String Lia.
From Verif Require Import ExprModel ExprSpec ExprFuel ExprGrammar ExprComplete ExprSound.
Import ListNotations.
Local Open Scope string_scope.
Local Open Scope list_scope.

Section Value.
Variable V : Type.
Variable truthy isnull : V -> bool.
Variable c_val : bool -> nat -> V.
Variable c_zero c_one c_true c_false c_null c_undef : V.
Variable typeof_undef : V.
Variable vbin : binop -> V -> V -> option V.
Variable vun : unop -> V -> option V.
Hypothesis h_val : forall b n, truthy (c_val b n) = b.
Hypothesis h_true : truthy c_true = true.
Hypothesis h_false : truthy c_false = false.
Hypothesis h_null : truthy c_null = false.
Hypothesis h_isnull : isnull c_null = true.
Hypothesis h_undef : isnull c_undef = true.

Notation value := (value V truthy isnull c_val c_zero c_one c_true c_false c_null typeof_undef vbin vun).

Lemma put_other (m : store V) x v : x <> "undefined" -> put V m x v "undefined" = m "undefined".
Proof.
  intros Hx. unfold put. destruct (String.eqb_spec "undefined" x); [congruence|reflexivity].
Qed.

Section Tree.
Variable P : tree -> Prop.
Hypothesis P_id : forall x, P (Id x).
Hypothesis P_val : forall b n, P (Val b n).
Hypothesis P_zero : P Zero.
Hypothesis P_one : P One.
Hypothesis P_true : P True_.
Hypothesis P_false : P False_.
Hypothesis P_null : P Null.
Hypothesis P_parens : forall e, P e -> P (Parens e).
Hypothesis P_comma : forall es, Forall P es -> P (Comma es).
Hypothesis P_un : forall u e, u <> Utypeof -> u <> Udelete -> u <> Uawait -> P e -> P (Un u e).
Hypothesis P_bin : forall o l r, P l -> P r -> P (Bin o l r).
Hypothesis P_cond : forall c a b, P c -> P a -> P b -> P (Cond c a b).
Hypothesis P_assign : forall x e, x <> "undefined" -> P e -> P (Assign Aplain (Id x) e).
Fixpoint simple_value_rect' t (H : simple_value t) : P t.
Proof.
  destruct H.
  - apply P_id.
  - apply P_val.
  - apply P_zero.
  - apply P_one.
  - apply P_true.
  - apply P_false.
  - apply P_null.
  - apply P_parens, simple_value_rect', H.
  - apply P_comma. induction H as [|e es He Hes IH]; constructor;
      [apply simple_value_rect', He|exact IH].
  - apply P_un; try assumption. apply simple_value_rect'. assumption.
  - apply P_bin; apply simple_value_rect'; assumption.
  - apply P_cond; apply simple_value_rect'; assumption.
  - apply P_assign; [assumption|apply simple_value_rect'; assumption].
Qed.
End Tree.

Definition keeps (t : tree) : Prop :=
  forall m, m "undefined" = Some c_undef ->
  value (fold t) m = value t m /\ fst (value t m) "undefined" = Some c_undef.

Lemma value_truth t m b : truth t = Some b -> exists v, value t m = (m, Some v) /\ truthy v = b.
Proof. destruct t; cbn; intros E0; try discriminate; injection E0 as <-; eauto. Qed.
Lemma value_nullish t m : nullish t = true -> m "undefined" = Some c_undef ->
  exists v, value t m = (m, Some v) /\ isnull v = true.
Proof.
  destruct t; cbn; intros E0 Hm; try discriminate; eauto.
  apply String.eqb_eq in E0. subst x. rewrite Hm. eauto.
Qed.

Theorem fold_value t : simple_value t -> keeps t.
Proof.
  apply simple_value_rect'; unfold keeps; try (intros; split; [reflexivity|assumption]).
  - (* parentheses *) intros e IH m Hm. cbn [fold ExprSpec.value]. apply IH, Hm.
  - (* comma *)
    intros es IH m Hm. cbn [fold ExprSpec.value].
    set (go := fix go l m v := match l with
         | [] => (m, v)
         | e :: l' => match value e m with
             | (m1, Some v1) => go l' m1 (Some v1)
             | (m1, None) => (m1, None) end end).
    assert (K : forall l, Forall (fun t => forall m, m "undefined" = Some c_undef ->
        value (fold t) m = value t m /\ fst (value t m) "undefined" = Some c_undef) l ->
      forall m v, m "undefined" = Some c_undef ->
      go (map fold l) m v = go l m v /\ fst (go l m v) "undefined" = Some c_undef).
    { induction 1 as [|e l He Hl IHl]; intros m' v Hm'; [split; [reflexivity|exact Hm']|].
      cbn [map go]. destruct (He m' Hm') as (E1 & E2). rewrite E1.
      destruct (value e m') as [m1 [v1|]]; cbn [fst] in E2.
      - apply IHl, E2.
      - split; [reflexivity|exact E2]. }
    apply K; assumption.
  - (* unary *)
    intros u e H1 H2 H3 IH m Hm. cbn [fold].
    destruct (IH m Hm) as (E1 & E2).
    destruct u; try congruence; cbn [ExprSpec.value]; rewrite E1;
      destruct (value e m) as [m1 [v1|]]; cbn [fst] in *; split; auto.
  - (* binary *)
    intros o l r IHl IHr m Hm. destruct (IHl m Hm) as (E1 & E2).
    assert (G : forall o', o' <> Oand -> o' <> Oor -> o' <> Oques ->
      value (Bin o' (fold l) (fold r)) m = value (Bin o' l r) m /\
      fst (value (Bin o' l r) m) "undefined" = Some c_undef).
    { intros o' N1 N2 N3.
      assert (U : forall a b, value (Bin o' a b) m = match value a m with
        | (m1, Some v) => match value b m1 with
            | (m2, Some u) => (m2, vbin o' v u) | x => x end
        | x => x end) by (intros; destruct o'; congruence || reflexivity).
      rewrite !U, E1. destruct (value l m) as [m1 [v|]]; cbn [fst] in *; [|split; auto].
      destruct (IHr m1 E2) as (E3 & E4). rewrite E3.
      destruct (value r m1) as [m2 [u|]]; cbn [fst] in *; split; auto. }
    destruct o; try (apply G; discriminate); clear G; cbn [fold].
    + assert (W : fst (value (Bin Oand l r) m) "undefined" = Some c_undef).
      { cbn [ExprSpec.value]. destruct (value l m) as [m1 [v|]]; cbn [fst] in *; auto.
        destruct (truthy v); [apply IHr, E2|exact E2]. }
      split; [|exact W]. clear W. cbn [ExprSpec.value]. rewrite <- E1.
      destruct (truth (fold l)) as [b|] eqn:Et.
      * destruct (value_truth _ m _ Et) as (v & Ev & Hv). cbn [choose]. rewrite Ev, Hv.
        destruct b; [apply IHr, Hm|rewrite Ev; reflexivity].
      * cbn [choose ExprSpec.value]. rewrite E1.
        destruct (value l m) as [m1 [v|]]; cbn [fst] in *; auto.
        destruct (truthy v); [apply IHr, E2|reflexivity].
    + assert (W : fst (value (Bin Oor l r) m) "undefined" = Some c_undef).
      { cbn [ExprSpec.value]. destruct (value l m) as [m1 [v|]]; cbn [fst] in *; auto.
        destruct (truthy v); [exact E2|apply IHr, E2]. }
      split; [|exact W]. clear W. cbn [ExprSpec.value]. rewrite <- E1.
      destruct (truth (fold l)) as [b|] eqn:Et.
      * destruct (value_truth _ m _ Et) as (v & Ev & Hv). cbn [choose]. rewrite Ev, Hv.
        destruct b; [rewrite Ev; reflexivity|apply IHr, Hm].
      * cbn [choose ExprSpec.value]. rewrite E1.
        destruct (value l m) as [m1 [v|]]; cbn [fst] in *; auto.
        destruct (truthy v); [reflexivity|apply IHr, E2].
    + assert (W : fst (value (Bin Oques l r) m) "undefined" = Some c_undef).
      { cbn [ExprSpec.value]. destruct (value l m) as [m1 [v|]]; cbn [fst] in *; auto.
        destruct (isnull v); [apply IHr, E2|exact E2]. }
      split; [|exact W]. clear W. cbn [ExprSpec.value]. rewrite <- E1.
      destruct (nullish (fold l)) eqn:Et.
      * destruct (value_nullish _ m Et Hm) as (v & Ev & Hv). rewrite Ev, Hv. apply IHr, Hm.
      * cbn [ExprSpec.value]. rewrite E1.
        destruct (value l m) as [m1 [v|]]; cbn [fst] in *; auto.
        destruct (isnull v); [apply IHr, E2|reflexivity].
  - (* conditional *)
    intros c a b IHc IHa IHb m Hm. destruct (IHc m Hm) as (E1 & E2).
    assert (W : fst (value (Cond c a b) m) "undefined" = Some c_undef).
    { cbn [ExprSpec.value]. destruct (value c m) as [m1 [v|]]; cbn [fst] in *; auto.
      destruct (truthy v); [apply IHa, E2|apply IHb, E2]. }
    split; [|exact W]. clear W. cbn [fold ExprSpec.value]. rewrite <- E1.
    destruct (truth (fold c)) as [x|] eqn:Et.
    + destruct (value_truth _ m _ Et) as (v & Ev & Hv). cbn [choose]. rewrite Ev, Hv.
      destruct x; [apply IHa, Hm|apply IHb, Hm].
    + cbn [choose ExprSpec.value]. rewrite E1.
      destruct (value c m) as [m1 [v|]]; cbn [fst] in *; auto.
      destruct (truthy v); [apply IHa, E2|apply IHb, E2].
  - (* assignment *)
    intros x e Hx IH m Hm. destruct (IH m Hm) as (E1 & E2). cbn [fold ExprSpec.value]. rewrite E1.
    destruct (value e m) as [m1 [v|]]; cbn [fst] in *; split; auto.
    rewrite put_other by exact Hx. exact E2.
Qed.

End Value.

(** The whole parser. *)
Lemma ends_follow i rest : ends i rest -> follow i NExpr This rest.
Proof.
  destruct rest as [|k rest]; [auto|]. cbn. intros Hc.
  destruct k; try discriminate Hc; cbn; try lia.
  - destruct k; try discriminate Hc; cbn; try lia. cbn in Hc. rewrite Hc. lia.
  - destruct nl; [lia|discriminate].
  - destruct nl; [lia|discriminate].
Qed.

Theorem parse_complete strict i t w rest :
  G strict i NExpr t w -> plain_accept strict w -> ends i rest ->
  parse_expr strict i (w ++ rest) = Ok (fold t) rest.
Proof.
  intros HG HP He. destruct (proj1 (complete strict) _ _ _ _ HG HP) as (lp & _ & _ & K).
  apply ends_follow in He.
  destruct (K 0 rest 1 (fold t) rest) as (f & Ef).
  - left. cbn. lia.
  - exact He.
  - rewrite loop_S. unfold loop_step. cbv zeta. destruct rest as [|k rest]; [reflexivity|].
    cbn in He. destruct k; try reflexivity; try (cbn in He; lia).
    + destruct k; try reflexivity; cbn in He; [|lia]. destruct i; [lia|reflexivity].
    + destruct nl; [reflexivity|cbn in He; lia].
    + destruct nl; [reflexivity|cbn in He; lia].
    + destruct o; cbn in He; lia || reflexivity.
  - eapply parse_expr_any; exact Ef.
Qed.

Theorem parse_unique strict i t u w :
  G strict i NExpr t w -> G strict i NExpr u w -> plain_accept strict w -> nopair const_op w -> t = u.
Proof.
  intros Ht Hu HP HC.
  pose proof (parse_complete _ _ _ _ [] Ht HP I) as E1.
  pose proof (parse_complete _ _ _ _ [] Hu HP I) as E2.
  rewrite (fold_id _ _ _ _ _ Ht HC) in E1. rewrite (fold_id _ _ _ _ _ Hu HC) in E2. congruence.
Qed.

Theorem parse_exact strict i t w :
  plain_accept strict w -> plain_only w ->
  (parse_expr strict i w = Ok t [] <-> G strict i NExpr t w).
Proof.
  intros HP HO. split.
  - intros E0. destruct (parse_sound _ _ _ _ _ E0) as (w' & -> & K).
    rewrite app_nil_r in *. apply K, HO.
  - intros HG. pose proof (parse_complete _ _ _ _ [] HG HP I) as E1.
    rewrite app_nil_r in E1. rewrite (fold_id _ _ _ _ _ HG) in E1; [exact E1|apply HO].
Qed.

(** Which productions give a tree. *)
Lemma opt_level strict i n t w : G strict i n t w -> forall e, t = Opt e ->
  n <> NNew /\ n <> NMember /\ n <> NPrimary /\ n <> NCall.
Proof.
  induction 1; intros e0 Et; try discriminate Et; try (repeat split; discriminate).
  - subst t. specialize (IHG e0 eq_refl).
    match goal with U : unit_rule _ _ |- _ => destruct U end; repeat split; try discriminate; tauto.
  - match goal with U : atom _ _ |- _ => inversion U; congruence end.
Qed.
Lemma new_inv strict i n t w : G strict i n t w -> forall f, t = New f [] -> n <> NExpr ->
  exists m w', G strict i m f w' /\ (m = NNew \/ m = NMember).
Proof.
  induction 1; intros f0 Et Hn; try discriminate Et; try congruence.
  - apply (IHG f0 Et). match goal with U : unit_rule _ _ |- _ => destruct U end; discriminate.
  - injection Et as <-. eauto.
  - injection Et as <- ->. eauto.
  - match goal with U : atom _ _ |- _ => inversion U; congruence end.
Qed.
Lemma new_opt_no strict i n e w : G strict i n (New (Opt e) []) w -> n <> NExpr -> False.
Proof.
  intros HG Hn. destruct (new_inv _ _ _ _ _ HG _ eq_refl Hn) as (m & w' & HM & Hm).
  destruct (opt_level _ _ _ _ _ HM _ eq_refl). tauto.
Qed.
Lemma parens_inv strict i n t w : G strict i n t w -> n <> NExpr -> forall e, t = Parens e ->
  exists es w', E strict true es w' /\ seq es = e /\ w = Tlp :: w' ++ [Trp].
Proof.
  induction 1; intros Hn e0 Et; try discriminate Et; try congruence.
  - apply IHG; [|exact Et]. match goal with U : unit_rule _ _ |- _ => destruct U end; discriminate.
  - match goal with U : atom _ _ |- _ => inversion U; congruence end.
  - injection Et as <-. eauto.
Qed.
Lemma expr_inv strict i t w : G strict i NExpr t w -> comma_like t = false ->
  G strict i NAssi t w.
Proof.
  intros HG Hc. inversion HG; subst.
  - match goal with U : unit_rule NExpr _ |- _ => inversion U end.
  - match goal with U : E _ _ _ _ |- _ => inversion U; subst end; [assumption|].
    exfalso. match goal with U : E _ _ ?es _ |- _ => destruct es; [inversion U|discriminate Hc] end.
  - match goal with U : left_op ?o = Some (NExpr, _) |- _ => destruct o; discriminate U end.
  - intuition discriminate.
  - intuition discriminate.
  - intuition discriminate.
  - intuition discriminate.
Qed.
