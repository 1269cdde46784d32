(** Every tree the parser gives is numbered as the matcher needs; the parser ends *)
From Coq Require Import ZArith List Bool Lia ZifyBool Arith.
Import ListNotations.
From Verif Require StrModel.
From Verif Require Import RegModel RegSpec RegBase RegParseModel RegParseSpec RegParseProofs RegParseTree.
Local Open Scope Z_scope.

Section whole.
  Variable P : penv.
  Lemma parse_ok : forall w p s, ascii_tables (tables_of P) -> valid (p_u P) (p_n P) false (tables_of P) w p s ->
    exists st, parse P w = POk (p, st) /\ s_groups st = g_next s /\ map fst (s_names st) = g_names s.
  Proof.
    intros w p s At (Gp & Fr & In1). destruct (reads P At) as (R & _).
    assert (S0 : sim (G 1 [] [] []) empty_st).
    { unfold sim, empty_st. cbn. repeat (split; [reflexivity|]). split; [constructor|]. split; [intros ? []|]. split; intros ? ? []. }
    destruct (R _ _ _ _ _ Gp (or_introl eq_refl) (4 * length w + 4)%nat [] O empty_st ltac:(lia) S0) as (st & E & Sg & Sn & Sb & _ & _ & Sd & _).
    exists st. split; [|split; auto]. unfold parse. rewrite app_nil_r in E. rewrite E. cbn [pbind].
    rewrite Sb, Sg. rewrite Forall_forall in Fr.
    replace (existsb (fun v => Z.of_nat (g_next s) <=? v) (g_refs s)) with false.
    - replace (existsb (fun n => negb (snd n)) (s_names st)) with false; auto.
      symmetry. apply not_true_is_false. intros K. apply existsb_exists in K. destruct K as ([m b] & A & B). cbn in B.
      assert (b = true); [|subst; discriminate]. apply (Sd _ _ A). apply In1. rewrite <- Sn. apply (in_map fst) in A. auto.
    - symmetry. apply not_true_is_false. intros K. apply existsb_exists in K. destruct K as (v & A & B). apply Fr in A. lia.
  Qed.
End whole.

(** ** inversion of the monad *)
Lemma pbind_inv : forall {A B} (m : pres A) (k : A -> pres B) b, pbind m k = POk b -> exists a, m = POk a /\ k a = POk b.
Proof. intros A B [a| | |] k b H; cbn in H; try discriminate. eauto. Qed.
Lemma pbind_fuel : forall {A B} (m : pres A) (k : A -> pres B), m <> PFuel -> (forall a, m = POk a -> k a <> PFuel) -> pbind m k <> PFuel.
Proof. intros A B [a| | |] k H H2; cbn; try congruence. auto. Qed.

Definition inv (st : pst) : Prop :=
  (length (s_list st) + 1 = s_groups st)%nat /\
  Forall (fun g => -1 <= fst g < Z.of_nat (length (s_names st))) (s_list st).
Definition later (st st' : pst) : Prop :=
  incl (s_brs st) (s_brs st') /\ (length (s_names st) <= length (s_names st'))%nat /\ (s_groups st <= s_groups st')%nat.
Lemma later_refl : forall st, later st st.
Proof. intros. split; [apply incl_refl|lia]. Qed.
Lemma later_trans : forall a b c, later a b -> later b c -> later a c.
Proof. intros a b c (A & B & C) (D & E & F). split; [eapply incl_tran; eauto|lia]. Qed.
Definition enough (st : pst) (g m : nat) : Prop := Forall (fun v => v < Z.of_nat g) (s_brs st) /\ (length (s_names st) <= m)%nat.
Lemma enough_later : forall st st' g m, later st st' -> enough st' g m -> enough st g m.
Proof. intros st st' g m (A & B & C) (D & E). split; [|lia]. rewrite Forall_forall in *. auto. Qed.

Lemma index_lt : forall l m i, name_index l m = Some i -> (i < length l)%nat.
Proof.
  induction l as [|[a b] l IH]; intros m i H; [discriminate|]. cbn in *. destruct (name_eqb a m); [injection H as <-; lia|].
  destruct (name_index l m) eqn:E; [|discriminate]. injection H as <-. specialize (IH _ _ E). lia.
Qed.
Lemma mark_len : forall l i, length (mark l i) = length l.
Proof. induction l as [|[a b] l IH]; intros [|i]; cbn; auto. Qed.
Lemma intern_facts : forall st m def i st', intern st m def = (i, st') ->
  later st st' /\ (i < length (s_names st'))%nat /\ s_list st' = s_list st /\ s_groups st' = s_groups st.
Proof.
  intros st m def i st' H. unfold intern in H. destruct (name_index (s_names st) m) as [j|] eqn:E; injection H as <- <-; cbn.
  - apply index_lt in E. split; [|destruct def; rewrite ?mark_len; auto].
    split; cbn; [apply incl_refl|]. destruct def; rewrite ?mark_len; lia.
  - split; [split; cbn; [apply incl_refl|]; rewrite app_length; cbn; lia|]. rewrite app_length. cbn. split; [lia|auto].
Qed.

Lemma number_ge : forall lim s v x r, number lim v s = POk (x, r) -> 0 <= v -> v <= x.
Proof.
  induction s as [|c s IH]; intros v x r H Hv; cbn [number] in H; [injection H as <- <-; lia|].
  destruct (StrModel.is_digit c) eqn:D; [|injection H as <- <-; lia].
  destruct (lim <? v * 10 + (c - 48)); [discriminate|]. unfold StrModel.is_digit in D.
  apply IH in H; lia.
Qed.
Lemma decimal_ge : forall s x r, decimal s = POk (x, r) -> 0 <= x.
Proof.
  intros s x r H. unfold decimal in H. destruct (StrModel.is_digit (peek s)) eqn:D; [|discriminate].
  unfold StrModel.is_digit in D. apply number_ge in H; lia.
Qed.
Lemma quantifier_le : forall s mn mx g r, quantifier s = POk (mn, mx, g, r) -> match mx with Some m => (mn <= m)%nat | None => True end.
Proof.
  intros s mn mx g r H. unfold quantifier in H.
  assert (L : forall a b q, (let '(g, r') := lazy_mark q in POk (a, b, g, r')) = POk (mn, mx, g, r) -> a = mn /\ b = mx).
  { intros a b q. destruct (lazy_mark q). intros K. injection K. auto. }
  destruct (peek s =? 63); [apply L in H; destruct H as [<- <-]; lia|].
  destruct (peek s =? 43); [apply L in H; destruct H as [<- <-]; lia|].
  destruct (peek s =? 42); [apply L in H; destruct H as [<- <-]; lia|].
  destruct (peek s =? 123); [|injection H as <- <- <- <-; lia].
  apply pbind_inv in H. destruct H as ([a q] & D & H).
  destruct (peek q =? 44).
  - destruct (peek (drop1 q) =? 125); [apply L in H; destruct H as [<- <-]; auto|].
    apply pbind_inv in H. destruct H as ([b q2] & D2 & H).
    destruct (b <? a) eqn:Lt; [discriminate|]. destruct (peek q2 =? 125); [|discriminate]. apply L in H. destruct H as [<- <-]. lia.
  - destruct (peek q =? 125); [|discriminate]. apply L in H. destruct H as [<- <-]. lia.
Qed.

Lemma close_inv : forall s r, close_paren s = POk r -> s = 41 :: r.
Proof.
  intros [|c s] r H; unfold close_paren in H; cbn in H; [discriminate|].
  destruct (c =? 41) eqn:E; [|discriminate]. injection H as <-. f_equal. lia.
Qed.

(** ** safety *)
Section safe.
  Variable P : penv.
  Definition atom_fine (st : pst) (a : atom) (st' : pst) : Prop :=
    inv st -> inv st' /\ later st st' /\ num_atom a (s_groups st) = Some (s_groups st') /\
    forall g m, enough st' g m -> refs_atom g m a = true.
  Definition term_fine (st : pst) (t : term) (st' : pst) : Prop :=
    inv st -> inv st' /\ later st st' /\ num_term t (s_groups st) = Some (s_groups st') /\
    forall g m, enough st' g m -> refs_term g m t = true.
  Definition alt_fine (st : pst) (l : alt) (st' : pst) : Prop :=
    inv st -> inv st' /\ later st st' /\ num_terms l (Some (s_groups st)) = Some (s_groups st') /\
    forall g m, enough st' g m -> forallb (refs_term g m) l = true.
  Definition pat_fine (st : pst) (p : pattern) (st' : pst) : Prop :=
    inv st -> inv st' /\ later st st' /\ num_pat p (Some (s_groups st)) = Some (s_groups st') /\
    forall g m, enough st' g m -> forallb (forallb (refs_term g m)) p = true.

  Lemma simple_fine : forall st a, (forall g, num_atom a g = Some g) -> (forall g m, refs_atom g m a = true) -> atom_fine st a st.
  Proof. intros st a A B I. split; auto. split; [apply later_refl|]. split; auto. Qed.
  Lemma class_fine : forall s a r st, class P s = POk (a, r) -> atom_fine st a st.
  Proof.
    intros s a r st H. unfold class in H. apply pbind_inv in H. destruct H as ([l q] & _ & H). injection H as <- <-.
    apply simple_fine; auto.
  Qed.
  Lemma inv_open : forall st i path, inv st -> -1 <= i < Z.of_nat (length (s_names st)) -> inv (add_group (open_group st) i path).
  Proof.
    intros st i path (A & B) H. unfold inv. cbn. rewrite app_length. cbn. split; [lia|].
    apply Forall_app. split; auto.
  Qed.

  Lemma fine : forall f,
    (forall path s st a b r st', p_atom P f path s st = POk (a, b, r, st') -> atom_fine st a st') /\
    (forall path s st t r st', p_term P f path s st = POk (t, r, st') -> term_fine st t st') /\
    (forall path ai ti s st l r st', p_alt P f path ai ti s st = POk (l, r, st') -> alt_fine st l st') /\
    (forall path ai s st p r st', p_pat P f path ai s st = POk (p, r, st') -> pat_fine st p st').
  Proof.
    induction f as [|f (IHa & IHt & IHl & IHp)]; [repeat split; intros; discriminate|].
    assert (Sub : forall path s st (mk : pattern -> atom) (ia : bool) a b r st',
      (let* (p, r, st') := p_pat P f path O s st in
       let* r' := close_paren r in POk (mk p, ia, r', st')) = POk (a, b, r, st') ->
      exists p, a = mk p /\ pat_fine st p st').
    { intros path s st mk ia a b r st' H. apply pbind_inv in H. destruct H as ([[p q] st1] & E & H).
      apply pbind_inv in H. destruct H as (q2 & _ & H). injection H as <- <- <- <-. exists p. split; auto. eapply IHp; eauto. }
    split; [|split; [|split]].
    - intros path s st a b r st' H. cbn [p_atom] in H.
      destruct (peek s =? 46); [injection H as <- <- <- <-; apply simple_fine; auto|].
      destruct (peek s =? 94); [injection H as <- <- <- <-; apply simple_fine; auto|].
      destruct (peek s =? 36); [injection H as <- <- <- <-; apply simple_fine; auto|].
      destruct (peek s =? 91).
      { apply pbind_inv in H. destruct H as ([a' q] & E & H). injection H as <- <- <- <-. eapply class_fine; eauto. }
      destruct (peek s =? 40).
      { destruct (peek (drop1 s) =? 63).
        - destruct (peek (drop1 (drop1 s)) =? 58).
          { apply Sub in H. destruct H as (p & -> & H). exact H. }
          destruct (peek (drop1 (drop1 s)) =? 61).
          { apply Sub in H. destruct H as (p & -> & H). exact H. }
          destruct (peek (drop1 (drop1 s)) =? 33).
          { apply Sub in H. destruct H as (p & -> & H). exact H. }
          destruct (peek (drop1 (drop1 s)) =? 60); [|discriminate].
          destruct (peek (drop1 (drop1 (drop1 s))) =? 61).
          { apply Sub in H. destruct H as (p & -> & H). exact H. }
          destruct (peek (drop1 (drop1 (drop1 s))) =? 33).
          { apply Sub in H. destruct H as (p & -> & H). exact H. }
          apply pbind_inv in H. destruct H as ([n q] & _ & H).
          destruct (intern (open_group st) n true) as [i st2] eqn:Ei.
          destruct (dup_name st2 i path); [discriminate|].
          apply intern_facts in Ei. destruct Ei as (La & Li & Sl & Sg).
          apply Sub in H. destruct H as (p & -> & H). intros I.
          assert (I2 : inv (add_group st2 (Z.of_nat i) path)).
          { destruct I as (I1 & I3), La as (La1 & La2 & La3). unfold inv. cbn in *. rewrite Sl, app_length. cbn. rewrite Sg. cbn.
            split; [lia|]. apply Forall_app. split; [|constructor; [cbn; lia|constructor]].
            eapply Forall_impl; [|exact I3]. cbn. intros. lia. }
          destruct (H I2) as (A & B & C & D). split; auto. split.
          { eapply later_trans; [|exact B]. destruct La as (La1 & La2 & La3). split; cbn in *; auto. lia. }
          split; [|exact D]. cbn [num_atom]. rewrite Nat.eqb_refl. cbn [add_group s_groups] in C. rewrite Sg in C. exact C.
        - apply Sub in H. destruct H as (p & -> & H). intros I.
          assert (I2 : inv (add_group (open_group st) (-1) path)) by (apply inv_open; auto; lia).
          destruct (H I2) as (A & B & C & D). split; auto. split.
          { eapply later_trans; [|exact B]. split; cbn; [apply incl_refl|lia]. }
          split; [|exact D]. cbn [num_atom]. rewrite Nat.eqb_refl. exact C. }
      destruct (peek s =? 92).
      { destruct (peek (drop1 s) =? 98); [injection H as <- <- <- <-; apply simple_fine; auto|].
        destruct (peek (drop1 s) =? 66); [injection H as <- <- <- <-; apply simple_fine; auto|].
        destruct ((49 <=? peek (drop1 s)) && (peek (drop1 s) <=? 57)) eqn:D.
        { apply pbind_inv in H. destruct H as ([v q] & E & H). injection H as <- <- <- <-.
          apply number_ge in E; [|lia]. intros (I1 & I2). split; [split; auto|]. split.
          { split; cbn; [apply incl_appl, incl_refl|lia]. }
          split; [reflexivity|]. intros g m (En & _). cbn [refs_atom add_br s_brs] in *.
          rewrite Forall_forall in En. specialize (En v ltac:(apply in_or_app; cbn; auto)). lia. }
        destruct (p_n P && (peek (drop1 s) =? 107)).
        { apply pbind_inv in H. destruct H as ([n q] & _ & H).
          destruct (intern st n false) as [i st2] eqn:Ei. injection H as <- <- <- <-.
          apply intern_facts in Ei. destruct Ei as (La & Li & Sl & Sg). intros (I1 & I2). split.
          { unfold inv. rewrite Sl, Sg. split; auto. eapply Forall_impl; [|exact I2]. cbn. destruct La as (_ & La & _). intros. lia. }
          split; auto. split.
          { cbn [num_atom]. replace (Z.of_nat i <? 0) with false by lia. congruence. }
          intros g m (_ & En). cbn [refs_atom]. lia. }
        apply pbind_inv in H. destruct H as ([k q] & _ & H). injection H as <- <- <- <-. apply simple_fine; auto. }
      destruct (existsb (Z.eqb (peek s)) [63; 42; 43; 124; 123; 41; 93; 125]); [discriminate|].
      injection H as <- <- <- <-. apply simple_fine; auto.
    - intros path s st t r st' H. rewrite p_term_S in H. apply pbind_inv in H. destruct H as ([[[a b] q] st1] & E & H).
      apply pbind_inv in H. destruct H as ([[[mn mx] g] q2] & Eq & H). injection H as <- <- <-.
      intros I. destruct (IHa _ _ _ _ _ _ _ E I) as (A & B & C & D). split; auto. split; auto. split; [|exact D].
      cbn [num_term]. rewrite Nat.eqb_refl, C, Nat.eqb_refl.
      assert (L : match mx with Some m => (mn <= m)%nat | None => True end).
      { destruct b; [eapply quantifier_le; eauto|]. injection Eq as <- <- <- <-. lia. }
      destruct mx as [m|]; [|reflexivity]. replace (mn <=? m)%nat with true by (symmetry; apply Nat.leb_le; auto). reflexivity.
    - intros path ai ti s st l r st' H. rewrite p_alt_S in H.
      destruct ((peek s =? 124) || (peek s =? -1) || (peek s =? 41)).
      { injection H as <- <- <-. intros I. split; auto. split; [apply later_refl|]. split; auto. }
      apply pbind_inv in H. destruct H as ([[t q] st1] & E & H). apply pbind_inv in H. destruct H as ([[l2 q2] st2] & E2 & H).
      injection H as <- <- <-. intros I. destruct (IHt _ _ _ _ _ _ E I) as (A & B & C & D).
      destruct (IHl _ _ _ _ _ _ _ _ E2 A) as (A2 & B2 & C2 & D2). split; auto. split; [eapply later_trans; eauto|]. split.
      + cbn [num_terms fold_left]. rewrite C. exact C2.
      + intros g m En. cbn [forallb]. rewrite D by (eapply enough_later; eauto). rewrite D2 by auto. auto.
    - intros path ai s st p r st' H. rewrite p_pat_S in H. apply pbind_inv in H. destruct H as ([[l q] st1] & E & H).
      destruct (peek q =? 124).
      + apply pbind_inv in H. destruct H as ([[p2 q2] st2] & E2 & H). injection H as <- <- <-.
        intros I. destruct (IHl _ _ _ _ _ _ _ _ E I) as (A & B & C & D).
        destruct (IHp _ _ _ _ _ _ _ E2 A) as (A2 & B2 & C2 & D2). split; auto. split; [eapply later_trans; eauto|]. split.
        * cbn [num_pat fold_left]. fold (num_pat p2 (num_terms l (Some (s_groups st)))). rewrite C. exact C2.
        * intros g m En. cbn [forallb]. rewrite D by (eapply enough_later; eauto). rewrite D2 by auto. auto.
      + injection H as <- <- <-. intros I. destruct (IHl _ _ _ _ _ _ _ _ E I) as (A & B & C & D). split; auto. split; auto. split; auto.
        intros g m En. cbn [forallb]. rewrite D by auto. auto.
  Qed.

  Theorem parse_fine : forall s p st, parse P s = POk (p, st) ->
    well_numbered p (s_groups st) /\ forallb (forallb (refs_term (s_groups st) (length (s_names st)))) p = true /\
    length (s_list st) = (s_groups st - 1)%nat /\ (1 <= s_groups st)%nat /\
    Forall (fun g => -1 <= fst g < Z.of_nat (length (s_names st))) (s_list st).
  Proof.
    intros s p st H. unfold parse in H. apply pbind_inv in H. destruct H as ([[p' r] st'] & E & H).
    destruct r; [|discriminate]. destruct (existsb (fun v => Z.of_nat (s_groups st') <=? v) (s_brs st')) eqn:B; [discriminate|].
    destruct (existsb (fun n => negb (snd n)) (s_names st')); [discriminate|]. injection H as <- <-.
    destruct (fine (4 * length s + 4)) as (_ & _ & _ & F). destruct (F _ _ _ _ _ _ _ E) as ((I1 & I2) & L & C & D).
    { split; [reflexivity|constructor]. }
    split; [exact C|]. split; [|split; [lia|split; [lia|auto]]]. apply D. split; auto. apply Forall_forall. intros v Hv.
    destruct (Z.of_nat (s_groups st') <=? v) eqn:K; [|lia].
    assert (existsb (fun v => Z.of_nat (s_groups st') <=? v) (s_brs st') = true); [|congruence].
    apply existsb_exists. eauto.
  Qed.
End safe.
