(** The matchers of RegSpec.v never run out of fuel. *)
From Coq Require Import ZArith List Bool Arith Lia.
Import ListNotations.
From Verif Require Import RegModel RegSpec RegBase.
Local Open Scope nat_scope.

Section term.
  Variables (W : world) (lax : bool).
  Notation n := (inlen W).
  (** from [i] the direction [fwd] leads to [j] *)
  Definition ahead_of (fwd : bool) (i j : nat) : Prop := j <= n /\ if fwd then i <= j else j <= i.
  Definition tame (fwd : bool) (m : matcher) : Prop := forall x c, e x <= n ->
    (forall y, ahead_of fwd (e x) (e y) -> c y <> Out) -> m x c <> Out.
  Lemma ahead_refl : forall fwd i, i <= n -> ahead_of fwd i i.
  Proof. intros [|] i H; split; auto. Qed.
  Lemma ahead_trans : forall fwd i j k, ahead_of fwd i j -> ahead_of fwd j k -> ahead_of fwd i k.
  Proof. intros [|] i j k [A B] [C D]; split; lia. Qed.
  Lemma ahead_le : forall fwd i j, ahead_of fwd i j -> j <= n.
  Proof. intros fwd i j [A _]; auto. Qed.
  Hint Resolve ahead_refl ahead_trans ahead_le : core.

  Lemma tame_row : forall fwd d l, Forall (tame fwd) l -> tame fwd (in_row d l).
  Proof.
    intros fwd d. induction l as [|m l IH]; intros F x c Hx C; cbn [in_row]; auto.
    inversion F as [|? ? Hm Hl]; subst. specialize (IH Hl). destruct d.
    - apply Hm; auto. intros y Hy. apply IH; eauto.
    - apply IH; auto. intros y Hy. apply Hm; eauto.
  Qed.
  Lemma tame_turn : forall fwd l, Forall (tame fwd) l -> tame fwd (in_turn l).
  Proof.
    intros fwd. induction l as [|m l IH]; intros F x c Hx C; cbn [in_turn]; auto.
    inversion F as [|? ? Hm Hl]; subst. specialize (IH Hl). destruct l as [|m2 l]; [apply Hm; auto|].
    specialize (Hm x c Hx C). destruct (m x c); try congruence. apply IH; auto.
  Qed.
  Definition dist (fwd : bool) (i : nat) : nat := if fwd then n - i else i.
  Lemma tame_repeat : forall fwd m greedy gs ge, tame fwd m ->
    forall F mn mx x c, mn + dist fwd (e x) < F -> e x <= n ->
      (forall y, ahead_of fwd (e x) (e y) -> c y <> Out) ->
      repeat_matcher lax F m mn mx greedy gs ge x c <> Out.
  Proof.
    intros fwd m greedy gs ge Hm. induction F as [|F IH]; intros mn mx x c HF Hx C; [lia|].
    cbn [repeat_matcher]. destruct (match mx with Some 0 => true | _ => false end); auto.
    set (d := fun y => _).
    assert (D : forall y, ahead_of fwd (e x) (e y) -> d y <> Out).
    { intros y Hy. unfold d.
      assert (R : (mn = 0 -> e y <> e x) ->
        repeat_matcher lax F m (mn - 1) (match mx with Some k => Some (k - 1) | None => None end) greedy gs ge y c <> Out).
      { intros N. apply IH; eauto. destruct Hy as [Hn Hy]. unfold dist in *.
        destruct fwd; destruct mn; try specialize (N eq_refl); lia. }
      destruct (Nat.eqb_spec (e y) (e x)) as [E|E].
      - destruct lax.
        + destruct (Nat.leb_spec mn 1); cbn [andb]; auto. apply R. lia.
        + destruct (Nat.eqb_spec mn 0); cbn [andb]; [discriminate|]. apply R. lia.
      - rewrite andb_false_r. apply R. auto. }
    assert (M : m {| e := e x; cs := clear_caps gs ge (cs x) |} d <> Out) by (apply Hm; auto).
    destruct (negb (mn =? 0)); auto.
    destruct greedy.
    - destruct (m _ d); try congruence. apply C; auto.
    - specialize (C x (ahead_refl _ _ Hx)). destruct (c x); congruence.
  Qed.
  Lemma tame_set : forall a fwd, tame fwd (set_matcher W a fwd).
  Proof.
    intros a fwd x c Hx C. unfold set_matcher. destruct fwd.
    - destruct (Nat.ltb_spec (e x) n); [|discriminate]. destruct (member W a _); [|discriminate].
      apply C. cbn [e]. split; lia.
    - destruct (e x) as [|i] eqn:Ex; [discriminate|]. destruct (member W a _); [|discriminate].
      apply C. cbn [e]. split; lia.
  Qed.
  Lemma tame_back : forall r fwd, tame fwd (back_matcher W r fwd).
  Proof.
    intros [[rs re]|] fwd x c Hx C; unfold back_matcher; [|apply C; auto].
    destruct fwd.
    - destruct (Nat.leb_spec (e x + (re - rs)) n); [|discriminate]. destruct (forallb _ _); [|discriminate].
      apply C. cbn [e]. split; lia.
    - destruct (Nat.leb_spec (re - rs) (e x)); [|discriminate]. destruct (forallb _ _); [|discriminate].
      apply C. cbn [e]. split; lia.
  Qed.
  Lemma tame_check : forall b fwd x c, e x <= n ->
    (forall y, ahead_of fwd (e x) (e y) -> c y <> Out) -> assertion b x c <> Out.
  Proof. intros [|] fwd x c Hx C; unfold assertion; [apply C; auto|discriminate]. Qed.
  Definition TA (a : atom) : Prop := forall fwd, tame fwd (m_atom W lax a fwd).
  Definition TT (t : term) : Prop := forall fwd, tame fwd (m_term W lax t fwd).
  Lemma tame_terms : forall l fwd, Forall TT l -> tame fwd (m_terms W lax l fwd).
  Proof.
    intros l fwd F. apply tame_row. apply Forall_map. eapply Forall_impl; [|exact F]. intros t H. apply H.
  Qed.
  Lemma tame_pat : forall p fwd, Forall (Forall TT) p -> tame fwd (m_pat W lax p fwd).
  Proof.
    intros p fwd F. apply tame_turn. apply Forall_map. eapply Forall_impl; [|exact F]. intros l H. apply tame_terms. auto.
  Qed.
  Lemma all_tame : (forall a, TA a) /\ (forall t, TT t) /\ (forall p, Forall (Forall TT) p).
  Proof.
    assert (Hset : forall a, match a with AChar _ | AAll | AClass _ _ => True | _ => False end -> TA a).
    { intros a H fwd x c Hx C. destruct a; try tauto; apply tame_set; auto. }
    assert (Hchk : forall a, match a with ALineStart | ALineEnd | AWordB | ANotWordB => True | _ => False end -> TA a).
    { intros a H fwd x c Hx C. destruct a; try tauto; cbn [m_atom]; eapply tame_check; eauto. }
    assert (Hback : forall a, match a with ABack _ | AName _ => True | _ => False end -> TA a).
    { intros a H fwd x c Hx C. destruct a; try tauto; cbn [m_atom]; apply tame_back; auto. }
    assert (Hpat : forall p, Forall (Forall TT) p -> TA (APat p)).
    { intros p F fwd. exact (tame_pat p fwd F). }
    assert (Hgroup : forall i p, Forall (Forall TT) p -> TA (AGroup i p)).
    { intros i p F fwd x c Hx C. apply (tame_pat p fwd F); auto. }
    assert (Hlook : forall a ng p, Forall (Forall TT) p -> TA (ALook a ng p)).
    { intros a ng p F fwd x c Hx C.
      pose proof (tame_pat p a F x Found Hx ltac:(intros; discriminate)) as Q.
      change (m_atom W lax (ALook a ng p) fwd x c) with
        (match m_pat W lax p a x Found with
          | Out => Out
          | Found y => if ng then Failure else c (St (e x) (cs y))
          | Failure => if ng then c x else Failure
          end).
      destruct (m_pat W lax p a x Found); try congruence; destruct ng; try discriminate; apply C; cbn [e]; auto. }
    assert (Hterm : forall a mn mx gs ge g, TA a -> TT (Term a mn mx gs ge g)).
    { intros a mn mx gs ge g H fwd x c Hx C.
      assert (R : repeat_matcher lax (mn + n + 2) (m_atom W lax a fwd) mn mx g gs ge x c <> Out).
      { apply tame_repeat with fwd; auto. unfold dist. destruct fwd; lia. }
      cbn [m_term]. destruct mn as [|[|mn]]; auto. destruct mx as [[|[|m]]|]; auto. apply H; auto. }
    split; [|split]; [apply atom_tree with (Q := TT)|apply term_tree with (P := TA)|apply pat_tree with (P := TA)];
      intros; auto; try (apply Hset; exact I); try (apply Hchk; exact I); try (apply Hback; exact I).
  Qed.
  Theorem match_not_out : forall p i, i <= n -> m_match W lax p i <> Out.
  Proof.
    intros p i Hi. unfold m_match. apply (tame_pat p true); [apply all_tame|exact Hi|].
    intros; discriminate.
  Qed.
  (** a match ends at a place the continuation was called with *)
  Definition leads (fwd : bool) (m : matcher) : Prop := forall x c z, e x <= n -> m x c = Found z ->
    exists y, ahead_of fwd (e x) (e y) /\ c y = Found z.
  Lemma leads_row : forall fwd d l, Forall (leads fwd) l -> leads fwd (in_row d l).
  Proof.
    intros fwd d. induction l as [|m l IH]; intros F x c z Hx H; cbn [in_row] in H; [eauto|].
    inversion F as [|? ? Hm Hl]; subst. specialize (IH Hl). destruct d.
    - apply Hm in H; auto. destruct H as (y & A & H). apply IH in H; eauto. destruct H as (y' & A' & H). eauto.
    - apply IH in H; auto. destruct H as (y & A & H). apply Hm in H; eauto. destruct H as (y' & A' & H). eauto.
  Qed.
  Lemma leads_turn : forall fwd l, Forall (leads fwd) l -> leads fwd (in_turn l).
  Proof.
    intros fwd. induction l as [|m l IH]; intros F x c z Hx H; cbn [in_turn] in H; [eauto|].
    inversion F as [|? ? Hm Hl]; subst. specialize (IH Hl). destruct l as [|m2 l]; [apply Hm; auto|].
    destruct (m x c) eqn:Q; try discriminate.
    - apply IH; auto.
    - apply Hm; auto. congruence.
  Qed.
  Lemma leads_repeat : forall fwd m greedy gs ge, leads fwd m ->
    forall F mn mx, leads fwd (repeat_matcher lax F m mn mx greedy gs ge).
  Proof.
    intros fwd m greedy gs ge Hm. induction F as [|F IH]; intros mn mx x c z Hx H; [discriminate|].
    cbn [repeat_matcher] in H. destruct (match mx with Some 0 => true | _ => false end); [eauto|].
    set (d := fun y => _) in H.
    assert (D : forall y, ahead_of fwd (e x) (e y) -> d y = Found z -> exists w, ahead_of fwd (e x) (e w) /\ c w = Found z).
    { intros y Hy Q. unfold d in Q. destruct (_ && _).
      - destruct lax; [eauto|discriminate].
      - apply IH in Q; eauto. destruct Q as (w & A & Q). eauto. }
    assert (M : m {| e := e x; cs := clear_caps gs ge (cs x) |} d = Found z ->
      exists w, ahead_of fwd (e x) (e w) /\ c w = Found z).
    { intros Q. apply Hm in Q; auto. destruct Q as (y & A & Q). apply (D y); auto. }
    destruct (negb (mn =? 0)); auto.
    destruct greedy.
    - destruct (m _ d) eqn:Q; try discriminate; [eauto|]. apply M. congruence.
    - destruct (c x) eqn:Q; try discriminate; [eauto|]. exists x. split; auto. congruence.
  Qed.
  Lemma leads_set : forall a fwd, leads fwd (set_matcher W a fwd).
  Proof.
    intros a fwd x c z Hx H. unfold set_matcher in H. destruct fwd.
    - destruct (Nat.ltb_spec (e x) n); [|discriminate]. destruct (member W a _); [|discriminate].
      eexists. split; [|exact H]. cbn [e]. split; lia.
    - destruct (e x) as [|i] eqn:Ex; [discriminate|]. destruct (member W a _); [|discriminate].
      eexists. split; [|exact H]. cbn [e]. split; lia.
  Qed.
  Lemma leads_back : forall r fwd, leads fwd (back_matcher W r fwd).
  Proof.
    intros [[rs re]|] fwd x c z Hx H; unfold back_matcher in H; [|eauto].
    destruct fwd.
    - destruct (Nat.leb_spec (e x + (re - rs)) n); [|discriminate]. destruct (forallb _ _); [|discriminate].
      eexists. split; [|exact H]. cbn [e]. split; lia.
    - destruct (Nat.leb_spec (re - rs) (e x)); [|discriminate]. destruct (forallb _ _); [|discriminate].
      eexists. split; [|exact H]. cbn [e]. split; lia.
  Qed.
  Definition LA (a : atom) : Prop := forall fwd, leads fwd (m_atom W lax a fwd).
  Definition LT (t : term) : Prop := forall fwd, leads fwd (m_term W lax t fwd).
  Lemma leads_pat : forall p fwd, Forall (Forall LT) p -> leads fwd (m_pat W lax p fwd).
  Proof.
    intros p fwd F. apply leads_turn. apply Forall_map. eapply Forall_impl; [|exact F]. intros l H.
    apply leads_row. apply Forall_map. eapply Forall_impl; [|exact H]. intros t K. apply K.
  Qed.
  Lemma all_leads : (forall a, LA a) /\ (forall t, LT t) /\ (forall p, Forall (Forall LT) p).
  Proof.
    assert (Hset : forall a, match a with AChar _ | AAll | AClass _ _ => True | _ => False end -> LA a).
    { intros a H fwd x c z Hx C. destruct a; try tauto; eapply leads_set; eauto. }
    assert (Hchk : forall a, match a with ALineStart | ALineEnd | AWordB | ANotWordB => True | _ => False end -> LA a).
    { intros a H fwd x c z Hx C.
      assert (Q : c x = Found z).
      { destruct a; try tauto; cbn [m_atom] in C; unfold assertion in C;
          match type of C with (if ?b then _ else _) = _ => destruct b; [exact C|discriminate] end. }
      eauto. }
    assert (Hback : forall a, match a with ABack _ | AName _ => True | _ => False end -> LA a).
    { intros a H fwd x c z Hx C. destruct a; try tauto; cbn [m_atom] in C; eapply leads_back; eauto. }
    assert (Hpat : forall p, Forall (Forall LT) p -> LA (APat p)).
    { intros p F fwd. exact (leads_pat p fwd F). }
    assert (Hgroup : forall i p, Forall (Forall LT) p -> LA (AGroup i p)).
    { intros i p F fwd x c z Hx C. apply (leads_pat p fwd F) in C; auto. destruct C as (y & A & C). eexists. split; [|exact C]. exact A. }
    assert (Hlook : forall a ng p, Forall (Forall LT) p -> LA (ALook a ng p)).
    { intros a ng p F fwd x c z Hx C.
      change (m_atom W lax (ALook a ng p) fwd x c) with
        (match m_pat W lax p a x Found with
          | Out => Out
          | Found y => if ng then Failure else c (St (e x) (cs y))
          | Failure => if ng then c x else Failure
          end) in C.
      destruct (m_pat W lax p a x Found); try discriminate; destruct ng; try discriminate;
        eexists; (split; [|exact C]); cbn [e]; auto. }
    assert (Hterm : forall a mn mx gs ge g, LA a -> LT (Term a mn mx gs ge g)).
    { intros a mn mx gs ge g H fwd.
      assert (R : leads fwd (repeat_matcher lax (mn + n + 2) (m_atom W lax a fwd) mn mx g gs ge)) by (apply leads_repeat; auto).
      destruct mn as [|[|mn]]; try exact R. destruct mx as [[|[|m]]|]; try exact R. exact (H fwd). }
    split; [|split]; [apply atom_tree with (Q := LT)|apply term_tree with (P := LA)|apply pat_tree with (P := LA)];
      intros; auto; try (apply Hset; exact I); try (apply Hchk; exact I); try (apply Hback; exact I).
  Qed.
  Theorem match_ahead : forall p i y, i <= n -> m_match W lax p i = Found y -> i <= e y <= n.
  Proof.
    intros p i y Hi H. unfold m_match in H. apply (leads_pat p true) in H; [|apply all_leads|exact Hi].
    destruct H as (z & [A B] & Q). injection Q as ->. cbn [e] in B. lia.
  Qed.
End term.
