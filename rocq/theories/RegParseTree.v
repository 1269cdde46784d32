(** The parser reads the grammar: groups, alternatives, patterns *)
From Coq Require Import ZArith List Bool Lia ZifyBool Arith.
Import ListNotations.
From Verif Require StrModel.
From Verif Require Import RegModel RegSpec RegBase RegParseModel RegParseSpec RegParseProofs.
Local Open Scope Z_scope.

Scheme gpat_i := Minimality for gpat Sort Prop
  with galt_i := Minimality for galt Sort Prop
  with gterm_i := Minimality for gterm Sort Prop
  with gassert_i := Minimality for gassert Sort Prop
  with gatom_i := Minimality for gatom Sort Prop.
Combined Scheme grammar_i from gpat_i, galt_i, gterm_i, gassert_i, gatom_i.

(** ** the state *)
Definition sim (s : gst) (st : pst) : Prop :=
  s_groups st = g_next s /\ map fst (s_names st) = g_names s /\ s_brs st = g_refs s /\
  NoDup (g_names s) /\ incl (g_defs s) (g_names s) /\
  (forall m b, In (m, b) (s_names st) -> (b = true <-> In m (g_defs s))) /\
  (forall i path, In (i, path) (s_list st) -> i = -1 \/
     exists k m, i = Z.of_nat k /\ nth_error (g_names s) k = Some m /\ In m (g_defs s)).

Lemma name_eqb_ok : forall a b, name_eqb a b = true <-> a = b.
Proof. intros. unfold name_eqb. destruct (list_eq_dec Z.eq_dec a b); split; congruence. Qed.
Lemma index_none : forall l m, ~ In m (map fst l) -> name_index l m = None.
Proof.
  induction l as [|[a b] l IH]; intros m N; auto. cbn [name_index map fst In] in *.
  destruct (name_eqb a m) eqn:E; [apply name_eqb_ok in E; subst; tauto|]. rewrite IH by tauto. auto.
Qed.
Lemma index_some : forall l i m, NoDup (map fst l) -> nth_error (map fst l) i = Some m -> name_index l m = Some i.
Proof.
  induction l as [|[a b] l IH]; intros i m N H; [destruct i; discriminate|]. cbn [map fst] in *. inversion N; subst.
  cbn [name_index]. destruct i as [|i]; cbn [nth_error] in H.
  - injection H as ->. destruct (name_eqb m m) eqn:E; auto. exfalso. assert (name_eqb m m = true) by (apply name_eqb_ok; auto). congruence.
  - destruct (name_eqb a m) eqn:E.
    + apply name_eqb_ok in E. subst. apply nth_error_In in H. contradiction.
    + rewrite (IH _ _ H3 H). auto.
Qed.
Lemma mark_fst : forall l i, map fst (mark l i) = map fst l.
Proof. induction l as [|[a b] l IH]; intros [|i]; cbn; auto. f_equal. auto. Qed.
Lemma mark_in : forall l i m b, In (m, b) (mark l i) ->
  (In (m, b) l /\ nth_error (map fst l) i <> Some m) \/ (b = true /\ nth_error (map fst l) i = Some m) \/ (In (m, b) l /\ ~ NoDup (map fst l)).
Proof.
  induction l as [|[a c] l IH]; intros [|i] m b H; cbn in H; try contradiction.
  - destruct H as [H|H].
    + injection H as -> <-. right. left. auto.
    + destruct (list_eq_dec Z.eq_dec a m) as [->|E].
      * right. right. split; [right; auto|]. cbn. intros N. inversion N; subst. apply H2. apply (in_map fst) in H. auto.
      * left. split; [right; auto|]. cbn. congruence.
  - destruct H as [H|H].
    + injection H as -> ->. cbn. destruct (list_eq_dec (list_eq_dec Z.eq_dec) [] []); [|congruence].
      destruct (nth_error (map fst l) i) as [x|] eqn:E.
      * destruct (list_eq_dec Z.eq_dec x m) as [->|E'].
        -- right. right. split; auto. intros N. inversion N; subst. apply nth_error_In in E. contradiction.
        -- left. split; auto. congruence.
      * left. split; auto. discriminate.
    + destruct (IH _ _ _ H) as [[A B]|[[A B]|[A B]]].
      * left. split; [right; auto|]. cbn. auto.
      * right. left. auto.
      * right. right. split; [right; auto|]. intros N. inversion N; subst. auto.
Qed.


Definition defs_after (s : gst) (m : list Z) (def : bool) := if def then g_defs s ++ [m] else g_defs s.
Lemma intern_ok : forall s st m i l' def, sim s st -> mention (g_names s) m i l' ->
  exists st', intern st m def = (i, st') /\ sim (G (g_next s) l' (defs_after s m def) (g_refs s)) st' /\
    s_list st' = s_list st.
Proof.
  intros s st m i l' def (Sg & Sn & Sb & Nd & Inc & Sd & Sl) Me. unfold intern.
  destruct Me as [[Hn ->]|[Nin [-> ->]]].
  - rewrite (index_some (s_names st) i m); [|rewrite Sn; auto..]. eexists. split; [reflexivity|]. split; [|reflexivity].
    assert (Inm : In m (g_names s)) by (eapply nth_error_In; eauto).
    split; [auto|]. split; [destruct def; [cbn; rewrite mark_fst|]; auto|]. split; [auto|]. split; [auto|].
    split; [|split].
    + cbn. unfold defs_after. destruct def; auto. intros x Hx. apply in_app_or in Hx. destruct Hx as [Hx|[<-|[]]]; auto.
    + cbn. unfold defs_after. intros x b Hx. destruct def; [|apply Sd; auto].
      apply mark_in in Hx. rewrite Sn in Hx. destruct Hx as [[A B]|[[-> B]|[A B]]].
      * rewrite (Sd _ _ A). rewrite in_app_iff. cbn. split; [auto|]. intros [H|[H|[]]]; auto. subst. congruence.
      * assert (x = m) by congruence. subst. rewrite in_app_iff. cbn. tauto.
      * contradiction.
    + cbn. intros k path Hk. destruct (Sl _ _ Hk) as [A|(j & x & A & B & C)]; auto. right. exists j, x.
      split; auto. split; auto. unfold defs_after. destruct def; auto. apply in_or_app. auto.
  - rewrite index_none by (rewrite Sn; auto). rewrite <- Sn, map_length. eexists. split; [reflexivity|]. split; [|reflexivity].
    split; [auto|]. split; [cbn; rewrite map_app; auto|]. split; [auto|]. split; [|split; [|split]].
    + cbn. rewrite Sn. clear -Nd Nin. rewrite <- (rev_involutive (g_names s ++ [m])). apply NoDup_rev. rewrite rev_app_distr. cbn.
      constructor; [rewrite <- in_rev; auto|]. apply NoDup_rev. auto.
    + cbn. rewrite Sn. unfold defs_after. intros x Hx. apply in_or_app. destruct def; [|left; auto].
      apply in_app_or in Hx. destruct Hx; auto.
    + cbn. unfold defs_after. intros x b Hx. apply in_app_or in Hx. destruct Hx as [Hx|[Hx|[]]].
      * rewrite (Sd _ _ Hx). destruct def; [|tauto]. rewrite in_app_iff. cbn. split; auto. intros [A|[A|[]]]; auto.
        subst. exfalso. apply Nin. rewrite <- Sn. apply (in_map fst) in Hx. auto.
      * injection Hx as <- <-. destruct def; [rewrite in_app_iff; cbn; tauto|].
        split; [discriminate|]. intros K. exfalso. auto.
    + cbn. intros k path Hk. destruct (Sl _ _ Hk) as [A|(j & x & A & B & C)]; auto. right. exists j, x.
      split; auto. rewrite Sn. split; [|unfold defs_after; destruct def; auto; apply in_or_app; auto].
      rewrite nth_error_app1; auto. apply nth_error_Some. congruence.
Qed.
Lemma dup_ok : forall s st m i path l', sim s st -> mention (g_names s) m i l' -> ~ In m (g_defs s) ->
  forall st', s_list st' = s_list st -> dup_name st' i path = false.
Proof.
  intros s st m i path l' (Sg & Sn & Sb & Nd & Inc & Sd & Sl) Me Nm st' E. unfold dup_name. rewrite E.
  apply not_true_is_false. intros K. apply existsb_exists in K. destruct K as ([j q] & A & B). cbn [fst snd] in B.
  apply andb_true_iff in B. destruct B as [B _]. destruct (Sl _ _ A) as [C|(k & x & C & D & F)]; [lia|].
  assert (k = i) by lia. subst k. destruct Me as [[Hn _]|[Nin [-> _]]]; [congruence|].
  assert (length (g_names s) < length (g_names s))%nat; [|lia]. apply nth_error_Some. congruence.
Qed.
Lemma sim_open : forall s st, sim s st -> sim (G (S (g_next s)) (g_names s) (g_defs s) (g_refs s)) (open_group st).
Proof. intros s st (A & B & C & D & E & F & H). exact (conj (f_equal S A) (conj B (conj C (conj D (conj E (conj F H)))))). Qed.
Lemma sim_add : forall s st i path, sim s st ->
  (i = -1 \/ exists k m, i = Z.of_nat k /\ nth_error (g_names s) k = Some m /\ In m (g_defs s)) -> sim s (add_group st i path).
Proof.
  intros s st i path (A & B & C & D & E & F & H) K. refine (conj A (conj B (conj C (conj D (conj E (conj F _)))))). cbn.
  intros j q Hj. apply in_app_or in Hj. destruct Hj as [Hj|[Hj|[]]]; [eauto|]. injection Hj as <- <-. auto.
Qed.

Lemma p_pat_S : forall P f path ai s st, p_pat P (S f) path ai s st =
  let* (l, r, st1) := p_alt P f path ai O s st in
  if peek r =? 124 then
    let* (p, r2, st2) := p_pat P f path (S ai) (drop1 r) st1 in POk (l :: p, r2, st2)
  else POk ([l], r, st1).
Proof. reflexivity. Qed.
Lemma p_alt_S : forall P f path ai ti s st, p_alt P (S f) path ai ti s st =
  if (peek s =? 124) || (peek s =? -1) || (peek s =? 41) then POk ([], s, st)
  else
    let* (t, r, st1) := p_term P f (path ++ [(ai, ti)]) s st in
    let* (l, r2, st2) := p_alt P f path ai (S ti) r st1 in
    POk (t :: l, r2, st2).
Proof. reflexivity. Qed.
Lemma p_term_S : forall P f path s st, p_term P (S f) path s st =
  let* (a, is_atom, r, st') := p_atom P f path s st in
  let* (mn, mx, g, r') := (if is_atom : bool then quantifier r else POk (1%nat, Some 1%nat, true, r)) in
  POk (Term a mn mx (s_groups st) (s_groups st') g, r', st').
Proof. reflexivity. Qed.

Definition stops (r : list Z) : Prop := r = [] \/ peek r = 41.
Definition astops (r : list Z) : Prop := stops r \/ peek r = 124.
Definition first_ok (w : list Z) : Prop :=
  exists c q, w = c :: q /\ 0 <= c /\ c <> 63 /\ c <> 43 /\ c <> 42 /\ c <> 123 /\ c <> 124 /\ c <> 41.
Lemma first_follow : forall w r, first_ok w -> follow (w ++ r).
Proof. intros w r (c & q & -> & H). unfold follow. cbn. lia. Qed.
Lemma astops_follow : forall r, astops r -> follow r.
Proof. unfold astops, stops, follow. intros [|c r] H; cbn in *; [tauto|]. destruct H as [[H|H]|H]; [discriminate|lia|lia]. Qed.

Section main.
  Variable P : penv.
  Notation T := (tables_of P).
  Hypothesis At : ascii_tables T.
  Notation gpat := (gpat (p_u P) (p_n P) false T).
  Notation galt := (galt (p_u P) (p_n P) false T).
  Notation gterm := (gterm (p_u P) (p_n P) false T).
  Notation gassert := (gassert (p_u P) (p_n P) false T).
  Notation gatom := (gatom (p_u P) (p_n P) false T).

  Lemma class_first : forall r w a, cclass (p_u P) false T r w a -> first_ok w.
  Proof. intros r w a H. inversion H; subst; (eexists _, _; split; [reflexivity|lia]). Qed.
  Lemma atom_first : forall s r w a s', gatom s r w a s' -> first_ok w.
  Proof.
    intros s r w a s' H. inversion H; subst; try (eexists _, _; split; [reflexivity|lia]).
    - unfold syntax in *. cbn [In] in *. exists c, []. split; auto. lia.
    - eapply class_first; eauto.
  Qed.
  Lemma assert_first : forall s r w a s', gassert s r w a s' -> first_ok w.
  Proof. intros s r w a s' H. inversion H; subst; (eexists _, _; split; [reflexivity|lia]). Qed.
  Lemma term_first : forall s r w t s', gterm s r w t s' -> first_ok w.
  Proof.
    intros s r w t s' H. inversion H; subst; [eapply assert_first; eauto|].
    match goal with K : RegParseSpec.gatom _ _ _ _ _ _ _ _ _ |- _ => apply atom_first in K; destruct K as (c & q & -> & K) end.
    eexists _, _. split; [reflexivity|auto].
  Qed.
  Lemma alt_first : forall s r w l s', galt s r w l s' -> w = [] \/ first_ok w.
  Proof.
    intros s r w l s' H. inversion H; subst; auto. right.
    match goal with K : RegParseSpec.gterm _ _ _ _ _ _ _ _ _ |- _ => apply term_first in K; destruct K as (c & q & -> & K) end.
    eexists _, _. split; [reflexivity|auto].
  Qed.
  Lemma pat_first : forall s r w p s', gpat s r w p s' -> w = [] \/ peek w <> 63.
  Proof.
    intros s r w p s' H. inversion H; subst;
      match goal with K : RegParseSpec.galt _ _ _ _ _ _ _ _ _ |- _ => apply alt_first in K; destruct K as [->|(c & q & -> & K)] end; auto.
    - right. cbn. lia.
    - right. cbn. lia.
    - right. cbn. lia.
  Qed.

  Definition atom_reads (is_atom : bool) (s : gst) (r w : list Z) (a : atom) (s' : gst) : Prop :=
    first_ok w /\ forall f path st, (4 * length w <= f)%nat -> sim s st ->
      exists st', p_atom P f path (w ++ r) st = POk (a, is_atom, r, st') /\ sim s' st'.

  Lemma sub_reads : forall s r w p s' (is_atom : bool) (mk : pattern -> atom) f path st,
    (stops (41 :: r) -> forall f path ai st, (4 * length w + 3 <= f)%nat -> sim s st ->
      exists st', p_pat P f path ai (w ++ 41 :: r) st = POk (p, 41 :: r, st') /\ sim s' st') ->
    (4 * length w + 3 <= f)%nat -> sim s st ->
    exists st', (let* (p, r, st') := p_pat P f path O ((w ++ [41]) ++ r) st in
      let* r' := close_paren r in POk (mk p, is_atom, r', st')) = POk (mk p, is_atom, r, st') /\ sim s' st'.
  Proof.
    intros s r w p s' is_atom mk f path st IH Hf Hs. rewrite <- app_assoc. cbn [app].
    destruct (IH (or_intror eq_refl) f path O st Hf Hs) as (st' & E & S'). exists st'. rewrite E. split; auto.
  Qed.

  Lemma reads :
    (forall s r w p s', gpat s r w p s' -> stops r -> forall f path ai st, (4 * length w + 3 <= f)%nat -> sim s st ->
      exists st', p_pat P f path ai (w ++ r) st = POk (p, r, st') /\ sim s' st') /\
    (forall s r w l s', galt s r w l s' -> astops r -> forall f path ai ti st, (4 * length w + 2 <= f)%nat -> sim s st ->
      exists st', p_alt P f path ai ti (w ++ r) st = POk (l, r, st') /\ sim s' st') /\
    (forall s r w t s', gterm s r w t s' -> first_ok w /\ (follow r -> forall f path st, (4 * length w + 1 <= f)%nat -> sim s st ->
      exists st', p_term P f path (w ++ r) st = POk (t, r, st') /\ sim s' st')) /\
    (forall s r w a s', gassert s r w a s' -> atom_reads false s r w a s') /\
    (forall s r w a s', gatom s r w a s' -> atom_reads true s r w a s').
  Proof.
    apply grammar_i.
    - (* g_last *) intros s r w l s' _ IH St f path ai st Hf Hs. destruct f as [|f]; [lia|].
      destruct (IH (or_introl St) f path ai O st ltac:(lia) Hs) as (st' & E & S').
      exists st'. split; auto. rewrite p_pat_S, E. cbn [pbind].
      replace (peek r =? 124) with false; auto. destruct St as [->|K]; [reflexivity|lia].
    - (* g_or *) intros s r w l s1 x p s' _ IH _ IH2 St f path ai st Hf Hs. destruct f as [|f]; [lia|].
      rewrite app_length in Hf. cbn [length] in Hf.
      destruct (IH (or_intror eq_refl) f path ai O st ltac:(lia) Hs) as (st1 & E & S1).
      destruct (IH2 St f path (S ai) st1 ltac:(lia) S1) as (st' & E2 & S').
      exists st'. split; auto. rewrite <- app_assoc. cbn [app]. rewrite p_pat_S, E. cbn [pbind peek drop1].
      cbn [Z.eqb Pos.eqb]. rewrite E2. reflexivity.
    - (* g_empty *) intros s r St f path ai ti st Hf Hs. destruct f as [|f]; [lia|]. exists st. split; auto.
      cbn [app]. rewrite p_alt_S. replace ((peek r =? 124) || (peek r =? -1) || (peek r =? 41)) with true; auto.
      destruct St as [[->|K]|K]; [reflexivity|lia|lia].
    - (* g_term *) intros s r w t s1 x l s' Gt [Fi IH] Ga IH2 St f path ai ti st Hf Hs. destruct f as [|f]; [lia|].
      rewrite app_length in Hf.
      assert (Lw : (1 <= length w)%nat) by (destruct Fi as (c & q & -> & _); cbn; lia).
      assert (Fo : follow (x ++ r)).
      { apply alt_first in Ga. destruct Ga as [->|Ga]; [apply astops_follow; auto|apply first_follow; auto]. }
      destruct (IH Fo f (path ++ [(ai, ti)]) st ltac:(lia) Hs) as (st1 & E & S1).
      destruct (IH2 St f path ai (S ti) st1 ltac:(lia) S1) as (st' & E2 & S').
      exists st'. split; auto. rewrite p_alt_S.
      destruct Fi as (c & q & -> & Fi). rewrite <- app_assoc. cbn [app peek] in *.
      replace ((c =? 124) || (c =? -1) || (c =? 41)) with false by lia. rewrite E. cbn [pbind]. rewrite E2. reflexivity.
    - (* g_assert *) intros s r w a s' _ [Fi IH]. split; auto. intros _ f path st Hf Hs. destruct f as [|f]; [lia|].
      destruct (IH f path st ltac:(lia) Hs) as (st' & E & S'). exists st'. split; auto. rewrite p_term_S, E. cbn [pbind].
      destruct Hs as (-> & _), S' as (-> & _). reflexivity.
    - (* g_atom *) intros s r w a s' x mn mx g _ [Fi IH] Q. split.
      { destruct Fi as (c & q & -> & Fi). exists c, (q ++ x). auto. }
      intros Fo f path st Hf Hs. destruct f as [|f]; [lia|]. rewrite app_length in Hf.
      destruct (IH f path st ltac:(lia) Hs) as (st' & E & S'). exists st'. split; auto.
      rewrite <- app_assoc, p_term_S, E. cbn [pbind]. rewrite (quant_ok _ _ _ _ _ Q Fo). cbn [pbind].
      destruct Hs as (-> & _), S' as (-> & _). reflexivity.
    - intros s r. split; [exists 94, []; split; auto; lia|]. intros [|f] path st Hf Hs; [cbn in Hf; lia|]. exists st. split; auto.
    - intros s r. split; [exists 36, []; split; auto; lia|]. intros [|f] path st Hf Hs; [cbn in Hf; lia|]. exists st. split; auto.
    - intros s r. split; [exists 92, [98]; split; auto; lia|]. intros [|f] path st Hf Hs; [cbn in Hf; lia|]. exists st. split; auto.
    - intros s r. split; [exists 92, [66]; split; auto; lia|]. intros [|f] path st Hf Hs; [cbn in Hf; lia|]. exists st. split; auto.
    - intros s r w p s' _ IH. split; [eexists _, _; split; [reflexivity|lia]|]. intros [|f] path st Hf Hs; [cbn in Hf; lia|].
      cbn [length] in Hf. rewrite app_length in Hf. cbn [length] in Hf.
      apply (sub_reads s r w p s' false (ALook true false) f path st IH); [lia|auto].
    - intros s r w p s' _ IH. split; [eexists _, _; split; [reflexivity|lia]|]. intros [|f] path st Hf Hs; [cbn in Hf; lia|].
      cbn [length] in Hf. rewrite app_length in Hf. cbn [length] in Hf.
      apply (sub_reads s r w p s' false (ALook true true) f path st IH); [lia|auto].
    - intros s r w p s' _ IH. split; [eexists _, _; split; [reflexivity|lia]|]. intros [|f] path st Hf Hs; [cbn in Hf; lia|].
      cbn [length] in Hf. rewrite app_length in Hf. cbn [length] in Hf.
      apply (sub_reads s r w p s' false (ALook false false) f path st IH); [lia|auto].
    - intros s r w p s' _ IH. split; [eexists _, _; split; [reflexivity|lia]|]. intros [|f] path st Hf Hs; [cbn in Hf; lia|].
      cbn [length] in Hf. rewrite app_length in Hf. cbn [length] in Hf.
      apply (sub_reads s r w p s' false (ALook false true) f path st IH); [lia|auto].
    - (* a_char *) intros s r c C N. unfold syntax in N. cbn [In] in N.
      split; [exists c, []; split; auto; lia|]. intros [|f] path st Hf Hs; [cbn in Hf; lia|]. exists st. split; auto.
      cbn [p_atom app peek drop1 existsb].
      repeat match goal with |- context[c =? ?k] => replace (c =? k) with false by lia end. reflexivity.
    - intros s r. split; [exists 46, []; split; auto; lia|]. intros [|f] path st Hf Hs; [cbn in Hf; lia|]. exists st. split; auto.
    - (* a_class *) intros s r w a C. destruct (class_ok P At _ _ _ C) as (q & -> & E).
      split; [eexists _, _; split; [reflexivity|lia]|]. intros [|f] path st Hf Hs; [cbn in Hf; lia|]. exists st. split; auto.
      cbn [p_atom app peek drop1]. cbn [Z.eqb Pos.eqb]. rewrite E. reflexivity.
    - (* a_esc *) intros s r w k H. destruct (escape_ok P At _ _ _ H) as (c & q & -> & C0 & E & N1 & N2 & N3 & N4).
      split; [eexists _, _; split; [reflexivity|lia]|]. intros [|f] path st Hf Hs; [cbn in Hf; lia|]. exists st. split; auto.
      cbn [p_atom app peek drop1]. cbn [Z.eqb Pos.eqb].
      replace (c =? 98) with false by lia. replace (c =? 66) with false by lia.
      replace ((49 <=? c) && (c <=? 57)) with false by lia. replace (c =? 107) with false by lia.
      rewrite andb_false_r, E. reflexivity.
    - (* a_back *) intros s r w v N N0 D Nr [W|W]; [discriminate|].
      split; [eexists _, _; split; [reflexivity|lia]|]. intros [|f] path st Hf Hs; [cbn in Hf; lia|].
      exists (add_br st v). split.
      + destruct D as (ds & F & E). destruct F as [|c d w ds [Hc ->] F]; [congruence|].
        cbn in N0. cbn [p_atom app peek drop1]. cbn [Z.eqb Pos.eqb].
        replace (c =? 98) with false by lia. replace (c =? 66) with false by lia.
        replace ((49 <=? c) && (c <=? 57)) with true by lia.
        unfold value in E. cbn [fold_left] in E. replace (0 * 10 + (c - 48)) with (c - 48) in E by lia.
        rewrite (number_go _ _ F); [|lia|unfold int_max; lia|auto]. rewrite <- E. reflexivity.
      + destruct Hs as (A & B & C & Hs). split; [auto|]. split; [auto|]. split; [cbn; congruence|]. exact Hs.
    - (* a_name *) intros s r w m i l' Nn H Me. destruct (name_ok P At _ _ _ H) as (E & q & -> & _).
      split; [eexists _, _; split; [reflexivity|lia]|]. intros [|f] path st Hf Hs; [cbn in Hf; lia|].
      destruct (intern_ok _ _ _ _ _ false Hs Me) as (st' & E2 & S' & _). exists st'. split; auto.
      cbn [p_atom app peek drop1]. cbn [Z.eqb Pos.eqb Z.leb Z.compare Pos.compare Pos.compare_cont andb]. rewrite Nn. cbn [andb].
      change (60 :: q ++ r) with ((60 :: q) ++ r). rewrite E. cbn [pbind]. rewrite E2. reflexivity.
    - (* a_group *) intros s r w p s' Gp IH. split; [eexists _, _; split; [reflexivity|lia]|].
      intros [|f] path st Hf Hs; [cbn in Hf; lia|]. cbn [length] in Hf. rewrite app_length in Hf. cbn [length] in Hf.
      assert (Nq : peek ((w ++ [41]) ++ r) =? 63 = false).
      { apply pat_first in Gp. destruct w as [|c w]; [reflexivity|]. destruct Gp as [Gp|Gp]; [discriminate|]. cbn in *. lia. }
      cbn [p_atom app peek drop1]. cbn [Z.eqb Pos.eqb]. rewrite Nq.
      pose proof (sub_reads _ r w p s' true (AGroup (g_next s)) f path (add_group (open_group st) (-1) path) IH ltac:(lia)) as K.
      destruct Hs as (Sg & Hs). rewrite Sg. apply K. apply sim_add; [|auto]. apply sim_open. split; auto.
    - (* a_named *) intros s r w m i l' x p s' H Nm Me Gp IH. destruct (name_ok P At _ _ _ H) as (E & q & -> & N61 & N33).
      split; [eexists _, _; split; [reflexivity|lia]|].
      intros [|f] path st Hf Hs; [cbn in Hf; lia|]. cbn [length] in Hf. rewrite !app_length in Hf. cbn [length] in Hf.
      assert (Re : ((40 :: 63 :: (60 :: q) ++ x ++ [41]) ++ r) = 40 :: 63 :: (60 :: q) ++ x ++ 41 :: r).
      { cbn [app]. do 3 f_equal. rewrite <- !app_assoc. reflexivity. }
      rewrite Re. cbn [p_atom app peek drop1]. cbn [Z.eqb Pos.eqb].
      replace (peek (q ++ x ++ 41 :: r) =? 61) with false by lia. replace (peek (q ++ x ++ 41 :: r) =? 33) with false by lia.
      change (60 :: q ++ x ++ 41 :: r) with ((60 :: q) ++ x ++ 41 :: r). rewrite E. cbn [pbind].
      apply sim_open in Hs as Hs1.
      destruct (intern_ok _ _ _ _ _ true Hs1 Me) as (st' & E2 & S' & Sl). rewrite E2.
      rewrite (dup_ok _ _ _ _ path _ Hs Me Nm st' Sl).
      pose proof (sub_reads _ r x p s' true (AGroup (g_next s)) f path (add_group st' (Z.of_nat i) path) IH ltac:(lia)) as K.
      destruct Hs as (Sg & Hs). rewrite Sg. rewrite <- app_assoc in K. cbn [app] in K. apply K. apply sim_add; [exact S'|].
      right. exists i, m. split; auto. cbn. split; [|apply in_or_app; cbn; auto].
      destruct Me as [[A ->]|[_ [-> ->]]]; auto. rewrite nth_error_app2 by lia. rewrite Nat.sub_diag. auto.
    - (* a_plain *) intros s r w p s' _ IH. split; [eexists _, _; split; [reflexivity|lia]|]. intros [|f] path st Hf Hs; [cbn in Hf; lia|].
      cbn [length] in Hf. rewrite app_length in Hf. cbn [length] in Hf.
      apply (sub_reads s r w p s' true APat f path st IH); [lia|auto].
  Qed.
End main.
