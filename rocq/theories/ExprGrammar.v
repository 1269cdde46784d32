(** Facts about the grammar of ExprSpec. *)
From Coq Require Import List Bool Arith String Lia.
From Verif Require Import ExprModel ExprSpec.
Import ListNotations.

Scheme G_mut := Minimality for G Sort Prop
  with E_mut := Minimality for E Sort Prop
  with L_mut := Minimality for L Sort Prop
  with A_mut := Minimality for A Sort Prop
  with H_mut := Minimality for H Sort Prop.
Combined Scheme grammar_mut from G_mut, E_mut, L_mut, A_mut, H_mut.

(** Tokens an expression can start with. *)
Definition starter (t : tok) : bool :=
  match t with
  | Tid _ | Tpriv _ | Tzero | Tone | Tval _ _ | Tprim _ | Ttmpl _ | Tlp
  | Tplus | Tminus | Ttilde | Tbang | Tinc _ | Tdec _ => true
  | Tkw (Kin | Kinstanceof | Kother) => false
  | Tkw _ => true
  | _ => false
  end.
Definition starts (P : tok -> bool) (w : list tok) : Prop :=
  match w with [] => False | t :: _ => P t = true end.

Lemma starts_app P u v : starts P u -> starts P (u ++ v).
Proof. destruct u; cbn; tauto. Qed.

Section Facts.
Variable strict : bool.

Lemma grammar_starts :
  (forall i n t w, G strict i n t w -> starts starter w) /\
  (forall i es w, E strict i es w -> starts starter w) /\
  (forall es w, L strict es w -> starts (fun t => starter t || match t with Tdots => true | _ => false end) w) /\
  (forall a w, A strict a w -> starts (fun t => starter t || match t with Tdots | Trp => true | _ => false end) w) /\
  (forall b t w, H strict b t w -> starts (fun t => match t with Tqdot => true | _ => false end) w).
Proof.
  apply (grammar_mut strict (fun i n t w => starts starter w)
    (fun i es w => starts starter w)
    (fun es w => starts (fun t => starter t || match t with Tdots => true | _ => false end) w)
    (fun a w => starts (fun t => starter t || match t with Tdots | Trp => true | _ => false end) w)
    (fun b t w => starts (fun t => match t with Tqdot => true | _ => false end) w));
  intros; try (apply starts_app; assumption); try assumption; try reflexivity.
  - destruct u; reflexivity.
  - destruct inc; reflexivity.
  - destruct H; reflexivity.
  - destruct w as [|t w]; [contradiction|]. cbn in *. rewrite H0. reflexivity.
  - apply starts_app. destruct w as [|t w]; [contradiction|]. cbn in *. rewrite H0. reflexivity.
  - apply starts_app. destruct w as [|t w]; [contradiction|]. cbn in *.
    destruct (starter t); [reflexivity|]. destruct t; try discriminate; reflexivity.
  - apply starts_app. destruct w as [|t w]; [contradiction|]. cbn in *.
    destruct (starter t); [reflexivity|]. destruct t; try discriminate; reflexivity.
Qed.

Lemma G_starts i n t w : G strict i n t w -> starts starter w.
Proof. apply grammar_starts. Qed.
Lemma G_cons i n t w : G strict i n t w -> exists k v, w = k :: v /\ starter k = true.
Proof. intros H. apply G_starts in H. destruct w as [|k v]; [contradiction|]. eauto. Qed.
Lemma E_cons i es w : E strict i es w -> exists k v, w = k :: v /\ starter k = true.
Proof. intros H. apply grammar_starts in H. destruct w as [|k v]; [contradiction|]. eauto. Qed.
Lemma H_cons b t w : H strict b t w -> exists v, w = Tqdot :: v.
Proof.
  intros H. apply grammar_starts in H. destruct w as [|k v]; [contradiction|].
  destruct k; try discriminate. eauto.
Qed.

(** A name or literal derives from one token only. *)
Definition lit (t : tree) : bool :=
  match t with Val _ _ | True_ | False_ | Null | Id _ => true | _ => false end.

Lemma lit_bare_target a t : simple strict t -> lit (Assign a (target a t) t) = false.
Proof. reflexivity. Qed.

Lemma lit_token_mut :
  (forall i n t w, G strict i n t w -> lit t = true -> exists k, w = [k] /\ atom t k) /\
  (forall i es w, E strict i es w -> forall e, es = [e] -> lit e = true -> exists k, w = [k] /\ atom e k) /\
  (forall es w, L strict es w -> True) /\
  (forall a w, A strict a w -> True) /\
  (forall b t w, H strict b t w -> True).
Proof.
  apply (grammar_mut strict (fun i n t w => lit t = true -> exists k, w = [k] /\ atom t k)
    (fun i es w => forall e, es = [e] -> lit e = true -> exists k, w = [k] /\ atom e k)
    (fun es w => True) (fun a w => True) (fun b t w => True));
  intros; try exact I; try discriminate; eauto.
  - destruct es as [|e [|e2 es]]; try discriminate. cbn [seq] in *. eauto.
  - injection H1 as ->. eauto.
  - destruct es as [|e2 es]; [|discriminate].
    inversion H1.
Qed.

Lemma lit_token i n t w : G strict i n t w -> lit t = true -> exists k, w = [k] /\ atom t k.
Proof. apply lit_token_mut. Qed.

(** No comma node outside parentheses below the level of expressions, and no
    node of arrow parameters. *)
Definition comma_like (t : tree) : bool :=
  match t with Comma _ => true | _ => false end.

Lemma no_comma_mut :
  (forall i n t w, G strict i n t w -> n <> NExpr -> comma_like t = false /\ comma_like (fold t) = false) /\
  (forall i es w, E strict i es w -> Forall (fun e => comma_like e = false /\ comma_like (fold e) = false) es) /\
  (forall es w, L strict es w -> True) /\
  (forall a w, A strict a w -> True) /\
  (forall b t w, H strict b t w -> True).
Proof.
  apply (grammar_mut strict (fun i n t w => n <> NExpr -> comma_like t = false /\ comma_like (fold t) = false)
    (fun i es w => Forall (fun e => comma_like e = false /\ comma_like (fold e) = false) es)
    (fun es w => True) (fun a w => True) (fun b t w => True));
  intros; try exact I; try (split; reflexivity); try contradiction.
  - apply H1. inversion H; discriminate.
  - split; [reflexivity|]. cbn [fold]. unfold choose.
    destruct (truth (fold c)) as [[|]|]; [apply H2; discriminate|apply H4; discriminate|reflexivity].
  - split; [reflexivity|]. cbn [fold]. destruct (nullish _); [apply H3; discriminate|reflexivity].
  - assert (Hm : m <> NExpr) by (destruct o; cbn in H; try discriminate H; injection H as <- <-; discriminate).
    specialize (H2 H5). specialize (H4 Hm).
    split; [reflexivity|]. destruct o; try discriminate H; cbn [fold]; try reflexivity; unfold choose;
      destruct (truth (fold l)) as [[|]|]; tauto || reflexivity.
  - destruct H; split; reflexivity.
  - constructor; [apply H0; discriminate|constructor].
  - constructor; [apply H0; discriminate|assumption].
Qed.

Lemma no_comma i n t w : G strict i n t w -> n <> NExpr -> comma_like t = false.
Proof. intros. eapply no_comma_mut; eassumption. Qed.
Lemma no_comma_fold i n t w : G strict i n t w -> n <> NExpr -> comma_like (fold t) = false.
Proof. intros. eapply no_comma_mut; eassumption. Qed.

(** Neighbours. *)
Lemma nopair_l P a b : nopair P (a ++ b) -> nopair P a.
Proof.
  intros H x u v y ->. apply (H x u v (y ++ b)). rewrite <- app_assoc. reflexivity.
Qed.
Lemma nopair_r P a b : nopair P (a ++ b) -> nopair P b.
Proof.
  intros H x u v y ->. apply (H (a ++ x) u v y). rewrite <- app_assoc. reflexivity.
Qed.
Lemma nopair_cons P k b : nopair P (k :: b) -> nopair P b.
Proof. apply (nopair_r P [k] b). Qed.
Lemma nopair_mid P a k v b : nopair P (a ++ k :: v :: b) -> P k v = false.
Proof. intros H. apply (H a k v b). reflexivity. Qed.

Lemma accept_l a b : plain_accept strict (a ++ b) -> plain_accept strict a.
Proof.
  intros (H1 & H2 & H3). split; [eapply nopair_l; eassumption|]. split; [eapply nopair_l; eassumption|].
  intros Hs. destruct (H3 Hs) as [H|[H H']].
  - left. intros Hi. apply H, in_or_app. left. exact Hi.
  - right. split; [|eapply nopair_l; eassumption]. intros Hi. apply H, in_or_app. left. exact Hi.
Qed.
Lemma accept_r a b : plain_accept strict (a ++ b) -> plain_accept strict b.
Proof.
  intros (H1 & H2 & H3). split; [eapply nopair_r; eassumption|]. split; [eapply nopair_r; eassumption|].
  intros Hs. destruct (H3 Hs) as [H|[H H']].
  - left. intros Hi. apply H, in_or_app. right. exact Hi.
  - right. split; [|eapply nopair_r; eassumption]. intros Hi. apply H, in_or_app. right. exact Hi.
Qed.
Lemma accept_cons k b : plain_accept strict (k :: b) -> plain_accept strict b.
Proof. apply (accept_r [k] b). Qed.

(** Without constant operands nothing is simplified. *)
Lemma const_left i n l w o rest :
  G strict i n l w -> nopair const_op (w ++ o :: rest) ->
  (o = Tbin Oand \/ o = Tbin Oor \/ o = Tques) -> truth l = None.
Proof.
  intros HG HP Ho. destruct (truth l) as [b|] eqn:Et; [|reflexivity].
  assert (Hl : lit l = true) by (destruct l; cbn in Et |- *; congruence).
  destruct (lit_token _ _ _ _ HG Hl) as (k & -> & Ha).
  specialize (nopair_mid _ [] k o rest HP).
  destruct Ha; cbn in Et; try discriminate; destruct Ho as [->|[->| ->]]; cbn; discriminate.
Qed.
Lemma const_left_ques i n l w rest :
  G strict i n l w -> nopair const_op (w ++ Tbin Oques :: rest) -> nullish l = false.
Proof.
  intros HG HP. destruct (nullish l) eqn:Et; [|reflexivity].
  assert (Hl : lit l = true) by (destruct l; cbn in Et |- *; congruence).
  destruct (lit_token _ _ _ _ HG Hl) as (k & -> & Ha).
  specialize (nopair_mid _ [] k _ rest HP).
  destruct Ha; cbn in Et |- *; congruence.
Qed.

Lemma fold_bare t : simple strict t -> fold t = t -> fold (bare t) = bare t.
Proof.
  induction 1; intros E; cbn [bare]; try exact E.
  apply IHsimple. cbn [fold] in E. congruence.
Qed.

Lemma fold_id_mut :
  (forall i n t w, G strict i n t w -> nopair const_op w -> fold t = t) /\
  (forall i es w, E strict i es w -> nopair const_op w -> map fold es = es) /\
  (forall es w, L strict es w -> nopair const_op w -> map (map_arg fold) es = es) /\
  (forall a w, A strict a w -> nopair const_op w -> map (map_arg fold) a = a) /\
  (forall b t w, H strict b t w -> nopair const_op w -> fold b = b -> fold t = t).
Proof.
  apply (grammar_mut strict (fun i n t w => nopair const_op w -> fold t = t)
    (fun i es w => nopair const_op w -> map fold es = es)
    (fun es w => nopair const_op w -> map (map_arg fold) es = es)
    (fun a w => nopair const_op w -> map (map_arg fold) a = a)
    (fun b t w => nopair const_op w -> fold b = b -> fold t = t)).
  - auto.
  - intros i es w _ IH HP. specialize (IH HP). destruct es as [|e [|e2 es]]; cbn [seq].
    + reflexivity.
    + cbn in IH. congruence.
    + cbn [fold]. rewrite IH. reflexivity.
  - intros i a l r wl wr _ IHl Hs _ IHr HP. cbn [fold].
    rewrite (IHr (nopair_cons _ _ _ (nopair_r _ _ _ HP))).
    specialize (IHl (nopair_l _ _ _ HP)).
    destruct a; cbn [target]; [rewrite (fold_bare _ Hs IHl)|rewrite IHl]; reflexivity.
  - intros i x b w _ IH HP. cbn [fold]. rewrite (IH (nopair_cons _ _ _ (nopair_cons _ _ _ HP))). reflexivity.
  - intros i c a b wc wa wb Hc IHc _ IHa _ IHb HP. cbn [fold].
    rewrite (IHc (nopair_l _ _ _ HP)).
    pose proof (nopair_cons _ _ _ (nopair_r _ _ _ HP)) as HP2.
    rewrite (IHa (nopair_l _ _ _ HP2)), (IHb (nopair_cons _ _ _ (nopair_r _ _ _ HP2))).
    rewrite (const_left _ _ _ _ _ _ Hc HP) by auto. reflexivity.
  - intros i n l r wl wr _ Hl IHl _ IHr HP. cbn [fold].
    rewrite (IHl (nopair_l _ _ _ HP)), (IHr (nopair_cons _ _ _ (nopair_r _ _ _ HP))).
    rewrite (const_left_ques _ _ _ _ _ Hl HP). reflexivity.
  - intros i o n m l r wl wr Ho Hi Hl IHl _ IHr HP.
    pose proof (IHl (nopair_l _ _ _ HP)) as El.
    pose proof (IHr (nopair_cons _ _ _ (nopair_r _ _ _ HP))) as Er.
    destruct o; try discriminate Ho; cbn [fold]; rewrite El, Er; try reflexivity;
      rewrite (const_left _ _ _ _ _ _ Hl HP) by (cbn; auto); reflexivity.
  - intros i x r w _ _ IH HP. cbn [fold]. rewrite (IH (nopair_cons _ _ _ (nopair_cons _ _ _ HP))). reflexivity.
  - intros i l r wl wr _ IHl _ IHr HP. cbn [fold].
    rewrite (IHl (nopair_l _ _ _ HP)), (IHr (nopair_cons _ _ _ (nopair_r _ _ _ HP))). reflexivity.
  - intros i u e w _ IH _ HP. cbn [fold]. rewrite (IH (nopair_cons _ _ _ HP)). reflexivity.
  - intros i inc nl e w _ IH _ HP. cbn [fold]. rewrite (IH (nopair_cons _ _ _ HP)). reflexivity.
  - intros i inc e w _ IH _ HP. cbn [fold]. rewrite (IH (nopair_l _ _ _ HP)). reflexivity.
  - intros i n b t wb w _ _ IHb _ IHh HP. cbn [fold].
    rewrite (IHh (nopair_r _ _ _ HP) (IHb (nopair_l _ _ _ HP))). reflexivity.
  - intros i f a wf wa _ IHf _ IHa HP. cbn [fold].
    rewrite (IHf (nopair_l _ _ _ HP)), (IHa (nopair_cons _ _ _ (nopair_r _ _ _ HP))). reflexivity.
  - intros i f a wf wa _ IHf _ IHa HP. cbn [fold].
    rewrite (IHf (nopair_l _ _ _ HP)), (IHa (nopair_cons _ _ _ (nopair_r _ _ _ HP))). reflexivity.
  - intros i a wa _ IH HP. cbn [fold]. rewrite (IH (nopair_cons _ _ _ (nopair_cons _ _ _ HP))). reflexivity.
  - intros i f w _ IH HP. cbn [fold map]. rewrite (IH (nopair_cons _ _ _ HP)). reflexivity.
  - intros i f a wf wa _ IHf _ IHa HP. apply nopair_cons in HP. cbn [fold].
    rewrite (IHf (nopair_l _ _ _ HP)), (IHa (nopair_cons _ _ _ (nopair_r _ _ _ HP))). reflexivity.
  - reflexivity.
  - reflexivity.
  - intros i e w _ IH HP. apply nopair_cons, nopair_cons, nopair_l in HP. cbn [fold]. rewrite (IH HP). reflexivity.
  - intros i n o p w _ _ IH HP. cbn [fold]. rewrite (IH (nopair_l _ _ _ HP)). reflexivity.
  - intros i n o p w _ _ IH HP. cbn [fold]. rewrite (IH (nopair_l _ _ _ HP)). reflexivity.
  - intros i n o e w we _ _ IHo _ IHe HP. cbn [fold].
    rewrite (IHo (nopair_l _ _ _ HP)). apply nopair_r, nopair_cons, nopair_l in HP. rewrite (IHe HP). reflexivity.
  - intros i n o p w _ _ IH HP. cbn [fold]. rewrite (IH (nopair_l _ _ _ HP)). reflexivity.
  - intros i t k Ha _. destruct Ha; reflexivity.
  - intros i es w _ IH HP. apply nopair_cons, nopair_l in HP. specialize (IH HP).
    cbn [fold]. f_equal. destruct es as [|e [|e2 es]]; cbn [seq].
    + reflexivity.
    + cbn in IH. congruence.
    + cbn [fold]. rewrite IH. reflexivity.
  - intros i e w _ IH HP. cbn [map]. rewrite (IH HP). reflexivity.
  - intros i e es w ws _ IH _ IHs HP. cbn [map].
    rewrite (IH (nopair_l _ _ _ HP)), (IHs (nopair_cons _ _ _ (nopair_r _ _ _ HP))). reflexivity.
  - intros e w _ IH HP. cbn. rewrite (IH HP). reflexivity.
  - intros e w _ IH HP. cbn. rewrite (IH (nopair_cons _ _ _ HP)). reflexivity.
  - intros e es w ws _ IH _ IHs HP. cbn [map map_arg].
    rewrite (IH (nopair_l _ _ _ HP)), (IHs (nopair_cons _ _ _ (nopair_r _ _ _ HP))). reflexivity.
  - intros e es w ws _ IH _ IHs HP. apply nopair_cons in HP. cbn [map map_arg].
    rewrite (IH (nopair_l _ _ _ HP)), (IHs (nopair_cons _ _ _ (nopair_r _ _ _ HP))). reflexivity.
  - reflexivity.
  - intros es w _ IH HP. exact (IH (nopair_l _ _ _ HP)).
  - intros es w _ IH HP. rewrite map_app, (IH (nopair_l _ _ _ HP)). reflexivity.
  - intros b a wa _ IH HP Hb. cbn [fold]. rewrite Hb, (IH (nopair_cons _ _ _ (nopair_cons _ _ _ HP))). reflexivity.
  - intros b e w _ IH HP Hb. apply nopair_cons, nopair_cons, nopair_l in HP. cbn [fold]. rewrite Hb, (IH HP). reflexivity.
  - intros b p _ Hb. cbn [fold]. rewrite Hb. reflexivity.
  - intros b p _ Hb. cbn [fold]. rewrite Hb. reflexivity.
  - intros b t w a wa _ IHt _ IHa HP Hb. cbn [fold].
    rewrite (IHt (nopair_l _ _ _ HP) Hb), (IHa (nopair_cons _ _ _ (nopair_r _ _ _ HP))). reflexivity.
  - intros b t w e we _ IHt _ IHe HP Hb. cbn [fold].
    rewrite (IHt (nopair_l _ _ _ HP) Hb). apply nopair_r, nopair_cons, nopair_l in HP. rewrite (IHe HP). reflexivity.
  - intros b t w p _ IHt HP Hb. cbn [fold]. rewrite (IHt (nopair_l _ _ _ HP) Hb). reflexivity.
  - intros b t w p _ IHt HP Hb. cbn [fold]. rewrite (IHt (nopair_l _ _ _ HP) Hb). reflexivity.
Qed.

Lemma fold_id i n t w : G strict i n t w -> nopair const_op w -> fold t = t.
Proof. apply fold_id_mut. Qed.

(** What `delete' takes in strict mode. *)
Lemma delete_ok_mut :
  (forall i n t w, G strict i n t w -> ~ In Tqdot w -> ~ delete_error t -> delete_operand true t = true) /\
  (forall i es w, E strict i es w -> ~ In Tqdot w -> ~ delete_error (seq es) -> delete_operand true (seq es) = true) /\
  (forall es w, L strict es w -> True) /\
  (forall a w, A strict a w -> True) /\
  (forall b t w, H strict b t w -> True).
Proof.
  apply (grammar_mut strict (fun i n t w => ~ In Tqdot w -> ~ delete_error t -> delete_operand true t = true)
    (fun i es w => ~ In Tqdot w -> ~ delete_error (seq es) -> delete_operand true (seq es) = true)
    (fun es w => True) (fun a w => True) (fun b t w => True));
  intros; try exact I; try reflexivity; auto.
  - exfalso. destruct (H_cons _ _ _ H2) as (v & ->). apply H4, in_or_app. right. left. reflexivity.
  - exfalso. apply H3. constructor.
  - destruct H; try reflexivity. exfalso. apply H1. constructor.
  - cbn [delete_operand]. apply H0.
    + intros Hi. apply H1. right. apply in_or_app. left. exact Hi.
    + intros Hd. apply H2. constructor. exact Hd.
  - destruct es as [|e2 es]; [inversion H1|]. reflexivity.
Qed.

Lemma delete_ok i n t w :
  G strict i n t w -> ~ In Tqdot w -> ~ delete_error t -> delete_operand true t = true.
Proof. apply delete_ok_mut. Qed.

Lemma simple_target_iff t : simple_target strict t = true <-> simple strict t.
Proof.
  split.
  - induction t; cbn; intros Hs; try discriminate; try (constructor; auto).
    intros (-> & [->| ->]); discriminate Hs.
  - induction 1; cbn; try reflexivity; try assumption.
    destruct strict; cbn; [|reflexivity].
    destruct (String.eqb_spec x "arguments"); [exfalso; apply H; auto|].
    destruct (String.eqb_spec x "eval"); [exfalso; apply H; auto|]. reflexivity.
Qed.

Lemma simple_fold t : simple strict t -> simple strict (fold t).
Proof. induction 1; cbn [fold]; constructor; auto. Qed.

Lemma bare_fold t : simple strict t -> to_lh (fold t) = fold (bare t).
Proof. induction 1; cbn [fold bare to_lh]; auto. Qed.

(** A simple unary expression is a left hand side. *)
Lemma simple_lhs i t w : G strict i NUnary t w -> simple strict t -> G strict i NLhs t w.
Proof.
  intros HG Hs. inversion HG; subst; try solve [inversion Hs|discriminate|intuition discriminate].
  match goal with U : unit_rule NUnary _ |- _ => inversion U; subst end.
  match goal with U : G _ _ NUpdate _ _ |- _ =>
    inversion U; subst; try solve [inversion Hs|discriminate|intuition discriminate] end.
  - match goal with U : unit_rule NUpdate _ |- _ => inversion U; subst end. assumption.
Qed.

End Facts.
