(** The matchers of RegSpec.v against the declarative meaning of a pattern, and the
    two treatments of an empty iteration against each other. *)
From Coq Require Import ZArith List Bool Arith Lia.
Import ListNotations.
From Verif Require Import RegModel RegSpec RegBase RegTerm.
Local Open Scope nat_scope.

Section lang.
  Variables (W : world) (lax : bool).
  Notation n := (inlen W).
  Notation rel := (nat -> nat -> Prop).
  Definition sound (m : matcher) (R : rel) : Prop := forall x c z, e x <= n -> m x c = Found z ->
    exists y, R (e x) (e y) /\ c y = Found z.
  Definition complete (m : matcher) (R : rel) : Prop := forall x c j, e x <= n -> R (e x) j ->
    (forall y, e y = j -> c y <> Failure) -> m x c <> Failure.
  Definition stays (R : rel) : Prop := forall i j, i <= n -> R i j -> j <= n.
  Definition means (m : matcher) (R : rel) : Prop := sound m R /\ complete m R /\ stays R.

  Lemma means_row : forall fwd ms Rs, Forall2 means ms Rs -> means (in_row fwd ms) (sat_row fwd Rs).
  Proof.
    intros fwd. induction 1 as [|m R ms Rs (S & C & T) F (S' & C' & T')].
    - split; [|split].
      + intros x c z Hx H. exists x. split; [reflexivity|exact H].
      + intros x c j Hx -> H. apply H. reflexivity.
      + intros i j Hi ->. auto.
    - split; [|split].
      + intros x c z Hx H. cbn [in_row sat_row] in *. destruct fwd.
        * destruct (S x _ z Hx H) as (y & A & B). destruct (S' y c z (T _ _ Hx A) B) as (u & D & G).
          exists u. eauto.
        * destruct (S' x _ z Hx H) as (y & A & B). destruct (S y c z (T' _ _ Hx A) B) as (u & D & G).
          exists u. eauto.
      + intros x c j Hx H Hc. cbn [in_row sat_row] in *. destruct fwd; destruct H as (h & A & B).
        * apply (C x _ h Hx A). intros y <-. apply (C' y c j); eauto.
        * apply (C' x _ h Hx A). intros y <-. apply (C y c j); eauto.
      + intros i j Hi H. cbn [sat_row] in H. destruct fwd; destruct H as (h & A & B); eauto.
  Qed.
  Lemma means_turn : forall ms Rs, Forall2 means ms Rs -> means (in_turn ms) (sat_turn Rs).
  Proof.
    induction 1 as [|m R ms Rs M F IH].
    - split; [|split].
      + intros x c z Hx H. exists x. split; [reflexivity|exact H].
      + intros x c j Hx -> H. apply H. reflexivity.
      + intros i j Hi ->. auto.
    - destruct F as [|m2 R2 ms Rs M2 F]; [exact M|].
      destruct M as (S & C & T). destruct IH as (S' & C' & T').
      change (in_turn (m :: m2 :: ms)) with (fun x c => m x c orelse in_turn (m2 :: ms) x c).
      change (sat_turn (R :: R2 :: Rs)) with (fun i j => R i j \/ sat_turn (R2 :: Rs) i j).
      split; [|split].
      + intros x c z Hx H. cbv beta in H. destruct (m x c) as [|u|] eqn:Em; [| |discriminate].
        * destruct (S' x c z Hx H) as (y & A & B). eauto.
        * destruct (S x c z Hx) as (y & A & B); [congruence|]. eauto.
      + intros x c j Hx H Hc. cbv beta. destruct H as [H|H].
        * specialize (C x c j Hx H Hc). destruct (m x c); congruence.
        * specialize (C' x c j Hx H Hc). destruct (m x c); congruence.
      + intros i j Hi [H|H]; eauto.
  Qed.
  (** ** quantifiers *)
  Lemma times_stays : forall R k i j, stays R -> i <= n -> times k R i j -> j <= n.
  Proof.
    intros R. induction k as [|k IH]; intros i j S Hi H; cbn [times] in H; [subst; auto|].
    destruct H as (h & A & B). eauto.
  Qed.
  (** iterations of which no one is wasted *)
  Inductive useful (R : rel) : nat -> option nat -> nat -> nat -> Prop :=
    | u_stop : forall mx i, useful R 0 mx i i
    | u_last : forall mn mx i, lax = true -> mn <= 1 -> mx <> Some 0 -> R i i -> useful R mn mx i i
    | u_more : forall mn mx i h j, mx <> Some 0 -> R i h -> ~ ((if lax then mn <= 1 else mn = 0) /\ h = i) ->
        useful R (mn - 1) (match mx with Some m => Some (m - 1) | None => None end) h j -> useful R mn mx i j.
  Lemma times_useful : forall R k mn mx i j, mn <= k -> match mx with Some m => k <= m | None => True end ->
    times k R i j -> useful R mn mx i j.
  Proof.
    intros R. induction k as [|k IH]; intros mn mx i j A B H; cbn [times] in H.
    - subst. assert (mn = 0) by lia. subst. constructor.
    - destruct H as (h & H1 & H2).
      assert (Mx : mx <> Some 0) by (intros ->; lia).
      assert (Sub : useful R (mn - 1) (match mx with Some m => Some (m - 1) | None => None end) h j).
      { apply IH; auto; [lia|]. destruct mx; auto. lia. }
      destruct (Nat.eq_dec h i) as [->|N].
      + destruct lax eqn:El.
        * destruct (le_dec mn 1) as [L|L].
          2:{ eapply u_more; eauto. rewrite El. tauto. }
          destruct mn as [|mn].
          { apply (IH 0 mx i j); auto; [lia|]. destruct mx; auto; lia. }
          assert (mn = 0) by lia. subst mn. destruct k as [|k].
          { cbn [times] in H2. subst j. apply u_last; auto. }
          apply (IH 1 mx i j); auto; [lia|]. destruct mx; auto; lia.
        * destruct mn as [|mn].
          { apply (IH 0 mx i j); auto; [lia|]. destruct mx; auto; lia. }
          eapply u_more; eauto. rewrite El. lia.
      + eapply u_more; eauto. intros [_ Q]. auto.
  Qed.
  Lemma sound_repeat : forall m R greedy gs ge, sound m R -> stays R -> forall F mn mx x c z,
    e x <= n -> match mx with Some k => mn <= k | None => True end ->
    repeat_matcher lax F m mn mx greedy gs ge x c = Found z ->
    exists y, (exists k, mn <= k /\ match mx with Some m => k <= m | None => True end /\ times k R (e x) (e y)) /\ c y = Found z.
  Proof.
    intros m R greedy gs ge S T. induction F as [|F IH]; intros mn mx x c z Hx Mn H; [discriminate|].
    cbn [repeat_matcher] in H.
    destruct (match mx with Some 0 => true | _ => false end) eqn:Ez.
    { destruct mx as [[|mx]|]; try discriminate. exists x. split; auto. exists 0. cbn. repeat split; auto. }
    match type of H with context [m _ ?d0] => set (d := d0) in H end.
    assert (Dx : forall u, m {| e := e x; cs := clear_caps gs ge (cs x) |} d = Found u ->
      exists y, (exists k, mn <= k /\ match mx with Some m => k <= m | None => True end /\ times k R (e x) (e y)) /\ c y = Found u).
    { intros u Hm. destruct (S (St (e x) (clear_caps gs ge (cs x))) d u Hx Hm) as (y & A & B). cbn [e] in A.
      assert (Hy : e y <= n) by eauto. unfold d in B.
      assert (Rec : repeat_matcher lax F m (mn - 1) (match mx with Some k => Some (k - 1) | None => None end) greedy gs ge y c = Found u ->
        exists y, (exists k, mn <= k /\ match mx with Some m => k <= m | None => True end /\ times k R (e x) (e y)) /\ c y = Found u).
      { intros Q. apply IH in Q; auto.
        - destruct Q as (w & (k & K1 & K2 & K3) & K4). exists w. split; auto. exists (1 + k). cbn [times plus].
          repeat split; [lia| |eauto]. destruct mx as [[|mx]|]; try discriminate; auto. lia.
        - destruct mx; auto. lia. }
      assert (One : (if lax then mn <=? 1 else mn =? 0) = true -> c y = Found u ->
        exists y, (exists k, mn <= k /\ match mx with Some m => k <= m | None => True end /\ times k R (e x) (e y)) /\ c y = Found u).
      { intros Q1 Q2. exists y. split; auto. exists 1. cbn [times]. repeat split.
        - destruct lax; [apply Nat.leb_le|apply Nat.eqb_eq in Q1; lia]. auto.
        - destruct mx as [[|mx]|]; try discriminate; auto. lia.
        - eauto. }
      destruct lax.
      - destruct ((mn <=? 1) && (e y =? e x)) eqn:Ec; auto. apply andb_prop in Ec. tauto.
      - destruct ((mn =? 0) && (e y =? e x)) eqn:Ec; auto. discriminate. }
    assert (Cx : mn = 0 -> c x = Found z ->
      exists y, (exists k, mn <= k /\ match mx with Some m => k <= m | None => True end /\ times k R (e x) (e y)) /\ c y = Found z).
    { intros -> Q. exists x. split; auto. exists 0. cbn [times]. repeat split; auto. }
    destruct (Nat.eqb_spec mn 0) as [Z0|N0]; cbn [negb] in H; auto.
    destruct greedy.
    - destruct (m _ d) as [|u|] eqn:Em; auto; try discriminate.
    - destruct (c x) as [|u|] eqn:Em; auto; try discriminate.
  Qed.
  Lemma complete_repeat : forall m R greedy gs ge, complete m R -> stays R -> forall F mn mx x c j,
    e x <= n -> useful R mn mx (e x) j -> (forall y, e y = j -> c y <> Failure) ->
    repeat_matcher lax F m mn mx greedy gs ge x c <> Failure.
  Proof.
    intros m R greedy gs ge C T. induction F as [|F IH]; intros mn mx x c j Hx U Hc; [discriminate|].
    cbn [repeat_matcher].
    destruct (match mx with Some 0 => true | _ => false end) eqn:Ez.
    { destruct mx as [[|mx]|]; try discriminate. inversion U; subst; try congruence; apply Hc; auto. }
    match goal with |- context [m _ ?d0] => set (d := d0) end.
    assert (Q : m {| e := e x; cs := clear_caps gs ge (cs x) |} d <> Failure \/ (mn = 0 /\ c x <> Failure)).
    { inversion U as [mx0 i0|mn0 mx0 i0 El Lm Nm Ri|mn0 mx0 i0 h j0 Nm Ri Nl U']; subst.
      - right. split; auto.
      - left. apply (C _ _ (e x)); auto. intros y Hy. unfold d. rewrite El, Hy, Nat.eqb_refl.
        destruct (Nat.leb_spec mn 1); [|lia]. cbn [andb]. apply Hc. auto.
      - left. apply (C _ _ h); auto. intros y Hy. unfold d.
        assert (Rec : repeat_matcher lax F m (mn - 1) (match mx with Some k => Some (k - 1) | None => None end) greedy gs ge y c <> Failure).
        { apply (IH _ _ _ _ j); auto.
          - rewrite Hy. apply (T (e x)); auto.
          - rewrite Hy. auto. }
        destruct (Nat.eqb_spec (e y) (e x)) as [Eq|Nq].
        + destruct lax.
          * destruct (Nat.leb_spec mn 1); cbn [andb]; auto. exfalso. apply Nl. split; lia.
          * destruct (Nat.eqb_spec mn 0); cbn [andb]; auto. exfalso. apply Nl. split; lia.
        + rewrite andb_false_r. auto. }
    destruct (Nat.eqb_spec mn 0) as [Z0|N0]; cbn [negb].
    - destruct greedy.
      + destruct (m _ d) eqn:Em; try discriminate. destruct Q as [Q|[_ Q]]; [congruence|auto].
      + destruct (c x) eqn:Ec; try discriminate. destruct Q as [Q|[_ Q]]; [auto|congruence].
    - destruct Q as [Q|[Q _]]; [auto|lia].
  Qed.
  Lemma means_repeat : forall m R greedy gs ge F mn mx, means m R ->
    match mx with Some k => mn <= k | None => True end ->
    means (repeat_matcher lax F m mn mx greedy gs ge)
      (fun i j => exists k, mn <= k /\ match mx with Some m => k <= m | None => True end /\ times k R i j).
  Proof.
    intros m R greedy gs ge F mn mx (S & C & T) Mn. split; [|split].
    - intros x c z Hx H. eapply sound_repeat; eauto.
    - intros x c j Hx (k & A & B & D) Hc. eapply complete_repeat; eauto. eapply times_useful; eauto.
    - intros i j Hi (k & A & B & D). eapply times_stays; eauto.
  Qed.
  (** ** atoms *)
  Definition MA (a : atom) : Prop := forall g g' fwd, num_atom a g = Some g' -> no_back a = true ->
    means (m_atom W lax a fwd) (sat_atom W a fwd).
  Definition MT (t : term) : Prop := forall g g' fwd, num_term t g = Some g' -> no_back_t t = true ->
    means (m_term W lax t fwd) (sat_term W t fwd).
  Lemma means_terms : forall l g g' fwd, Forall MT l -> num_terms l (Some g) = Some g' -> forallb no_back_t l = true ->
    Forall2 means (map (fun t => m_term W lax t fwd) l) (map (fun t => sat_term W t fwd) l).
  Proof.
    induction l as [|t l IH]; intros g g' fwd F N B; cbn [map]; constructor; inversion F; subst.
    - apply num_terms_cons in N. destruct N as (h & A & N). cbn in B. apply andb_prop in B.
      eapply H1; eauto. tauto.
    - apply num_terms_cons in N. destruct N as (h & A & N). cbn in B. apply andb_prop in B.
      eapply IH; eauto. tauto.
  Qed.
  Lemma means_pat : forall p g g' fwd, Forall (Forall MT) p -> num_pat p (Some g) = Some g' ->
    forallb (forallb no_back_t) p = true -> means (m_pat W lax p fwd) (sat_pat W p fwd).
  Proof.
    intros p g g' fwd F N B. apply means_turn. revert g g' N B. induction F as [|l p Fl Fp IH]; intros g g' N B; cbn [map]; constructor.
    - apply num_pat_cons in N. destruct N as (h & A & N). cbn in B. apply andb_prop in B.
      apply means_row. eapply means_terms; eauto. tauto.
    - apply num_pat_cons in N. destruct N as (h & A & N). cbn in B. apply andb_prop in B.
      eapply IH; eauto. tauto.
  Qed.
  Lemma means_set : forall a fwd, means (set_matcher W a fwd)
    (fun i j => if fwd then i < n /\ j = i + 1 /\ member W a (char_at W i) = true
                else i = j + 1 /\ member W a (char_at W j) = true).
  Proof.
    intros a fwd. split; [|split].
    - intros x c z Hx H. unfold set_matcher in H. destruct fwd.
      + destruct (Nat.ltb_spec (e x) n); [|discriminate]. destruct (member W a _) eqn:Em; [|discriminate].
        eexists. split; [|exact H]. cbn [e]. auto.
      + destruct (e x) as [|i] eqn:Ex; [discriminate|]. destruct (member W a _) eqn:Em; [|discriminate].
        eexists. split; [|exact H]. cbn [e]. split; auto. lia.
    - intros x c j Hx H Hc. unfold set_matcher. destruct fwd.
      + destruct H as (A & -> & B). destruct (Nat.ltb_spec (e x) n); [|lia]. rewrite B. apply Hc. reflexivity.
      + destruct H as (A & B). rewrite A, Nat.add_1_r, B. apply Hc. reflexivity.
    - intros i j Hi H. destruct fwd; lia.
  Qed.
  Lemma means_check : forall (m : matcher) (P : nat -> Prop) (b : nat -> bool),
    (forall x c, m x c = assertion (b (e x)) x c) -> (forall i, b i = true <-> P i) ->
    means m (fun i j => j = i /\ P i).
  Proof.
    intros m P b Hm Hb. split; [|split].
    - intros x c z Hx H. rewrite Hm in H. unfold assertion in H. destruct (b (e x)) eqn:Eb; [|discriminate].
      exists x. split; auto. split; auto. apply Hb. auto.
    - intros x c j Hx (-> & H) Hc. rewrite Hm. unfold assertion. apply Hb in H. rewrite H. apply Hc. reflexivity.
    - intros i j Hi (-> & _). auto.
  Qed.
  Lemma all_means : (forall a, MA a) /\ (forall t, MT t) /\ (forall p, Forall (Forall MT) p).
  Proof.
    assert (Hset : forall a, match a with AChar _ | AAll | AClass _ _ => True | _ => False end -> MA a).
    { intros a H g g' fwd N B. destruct a; try tauto; exact (means_set _ fwd). }
    assert (Hchk : forall a, match a with ALineStart | ALineEnd | AWordB | ANotWordB => True | _ => False end -> MA a).
    { intros a H g g' fwd N B. destruct a; try tauto.
      - apply (means_check _ (fun i => at_start W i = true) (fun i => at_start W i)); [reflexivity|tauto].
      - apply (means_check _ (fun i => at_end W i = true) (fun i => at_end W i)); [reflexivity|tauto].
      - apply (means_check _ (fun i => word_before W i <> word_at W i)
          (fun i => negb (Bool.eqb (word_before W i) (word_at W i)))); [reflexivity|].
        intros i. rewrite negb_true_iff, eqb_false_iff. tauto.
      - apply (means_check _ (fun i => word_before W i = word_at W i)
          (fun i => Bool.eqb (word_before W i) (word_at W i))); [reflexivity|].
        intros i. rewrite eqb_true_iff. tauto. }
    assert (Hback : forall a, match a with ABack _ | AName _ => True | _ => False end -> MA a).
    { intros a H g g' fwd N B. destruct a; try tauto; discriminate. }
    assert (Hpat : forall p, Forall (Forall MT) p -> MA (APat p)).
    { intros p F g g' fwd N B. exact (means_pat p g g' fwd F N B). }
    assert (Hgroup : forall i p, Forall (Forall MT) p -> MA (AGroup i p)).
    { intros i p F g g' fwd N B. cbn [num_atom] in N. destruct (i =? g); [|discriminate].
      destruct (means_pat p (S g) g' fwd F N B) as (S1 & C1 & T1). split; [|split].
      - intros x c z Hx H. destruct (S1 x _ z Hx H) as (y & A & D). eexists. split; [|exact D]. exact A.
      - intros x c j Hx H Hc. apply (C1 x _ j Hx H). intros y Hy. apply Hc. auto.
      - exact T1. }
    assert (Hlook : forall ah ng p, Forall (Forall MT) p -> MA (ALook ah ng p)).
    { intros ah ng p F g g' fwd N B. destruct (means_pat p g g' ah F N B) as (S1 & C1 & T1).
      assert (Q : forall x c, m_atom W lax (ALook ah ng p) fwd x c =
        match m_pat W lax p ah x Found with
          | Out => Out
          | Found y => if ng then Failure else c (St (e x) (cs y))
          | Failure => if ng then c x else Failure
          end) by reflexivity.
      assert (Nout : forall x, e x <= n -> m_pat W lax p ah x Found <> Out).
      { intros x Hx. apply (tame_pat W lax p ah (proj2 (proj2 (all_tame W lax)) p)); auto. intros; discriminate. }
      change (sat_atom W (ALook ah ng p) fwd) with (fun i j => j = i /\
        (if ng then ~ (exists h, sat_pat W p ah i h) else exists h, sat_pat W p ah i h)).
      split; [|split].
      - intros x c z Hx H. rewrite Q in H. destruct (m_pat W lax p ah x Found) as [|y|] eqn:Em.
        + destruct ng; [|discriminate]. exists x. split; auto. split; auto. intros (h & Hh).
          apply (C1 x Found h Hx Hh); auto. intros; discriminate.
        + destruct ng; [discriminate|]. eexists. split; [|exact H]. cbn [e]. split; auto.
          destruct (S1 x Found y Hx Em) as (y' & A & _). eauto.
        + discriminate.
      - intros x c j Hx (-> & H) Hc. rewrite Q. specialize (Nout x Hx).
        destruct (m_pat W lax p ah x Found) as [|y|] eqn:Em; [| |discriminate].
        + destruct ng; [apply Hc; auto|]. destruct H as (h & Hh). exfalso.
          apply (C1 x Found h Hx Hh); auto. intros; discriminate.
        + destruct ng; [|apply Hc; auto]. exfalso. apply H. destruct (S1 x Found y Hx Em) as (y' & A & _). eauto.
      - intros i j Hi (-> & _). auto. }
    assert (Hterm : forall a mn mx gs ge g, MA a -> MT (Term a mn mx gs ge g)).
    { intros a mn mx gs ge g H g0 g' fwd N B.
      cbn [num_term] in N. destruct (gs =? g0); [|discriminate]. cbn [andb] in N.
      destruct (match mx with Some m => mn <=? m | None => true end) eqn:Em; [|discriminate].
      destruct (num_atom a g0) as [h|] eqn:Na; [|discriminate].
      assert (Mn : match mx with Some m => mn <= m | None => True end).
      { destruct mx; auto. apply Nat.leb_le. auto. }
      specialize (H g0 h fwd Na B).
      pose proof (means_repeat _ _ g gs ge (mn + n + 2) mn mx H Mn) as R.
      destruct (Nat.eq_dec mn 1) as [->|N1].
      2:{ destruct mn as [|[|mn]]; try exact R; lia. }
      destruct mx as [m|]; [|exact R]. destruct (Nat.eq_dec m 1) as [->|N2].
      2:{ destruct m as [|[|m]]; try exact R; lia. }
      change (m_term W lax (Term a 1 (Some 1) gs ge g) fwd) with (fun x c => m_atom W lax a fwd x c).
      destruct H as (S1 & C1 & T1). split; [|split].
      - intros x c z Hx Hm. destruct (S1 x c z Hx Hm) as (y & A & D). exists y. split; auto.
        exists 1. cbn [times]. repeat split; eauto.
      - intros x c j Hx (k & A & D & T) Hc. assert (k = 1) by lia. subst k. cbn [times] in T.
        destruct T as (h' & T & Q). subst j. apply (C1 x c h'); auto.
      - intros i j Hi (k & A & D & T). eapply times_stays; eauto. }
    split; [|split]; [apply atom_tree with (Q := MT)|apply term_tree with (P := MA)|apply pat_tree with (P := MA)];
      intros; auto; try (apply Hset; exact I); try (apply Hchk; exact I); try (apply Hback; exact I).
  Qed.
  Theorem match_means : forall p i g, well_numbered p g -> forallb (forallb no_back_t) p = true -> i <= n ->
    ((exists y, m_match W lax p i = Found y) <-> exists j, sat_pat W p true i j) /\
    (forall y, m_match W lax p i = Found y -> sat_pat W p true i (e y)).
  Proof.
    intros p i g Wn B Hi.
    destruct (means_pat p 1 g true (proj2 (proj2 all_means) p) Wn B) as (S1 & C1 & _).
    assert (So : forall y, m_match W lax p i = Found y -> sat_pat W p true i (e y)).
    { intros y H. unfold m_match in H. apply S1 in H; auto. destruct H as (y' & A & D). injection D as ->. exact A. }
    split; auto. split.
    - intros (y & H). eauto.
    - intros (j & H). pose proof (match_not_out W lax p i Hi) as No. unfold m_match in *.
      pose proof (C1 (St i (repeat None (ngroups W))) Found j Hi H ltac:(intros; discriminate)) as Q.
      destruct (m_pat W lax p true _ Found) as [|y|]; try congruence. eauto.
  Qed.
End lang.

(** * the loops of the code and of the standard *)
Section same.
  Variables W V : world.
  Notation n := (inlen W).
  Hypothesis Hin : input V = input W.
  Hypothesis Hmem : forall a c, In c (input W) -> member W a c = member V a c.
  Hypothesis Hcan : forall c, canon W c = canon V c.
  Hypothesis Hword : forall c, In c (input W) -> wordchar W c = wordchar V c.
  Hypothesis Hmul : multiline V = multiline W.
  Hypothesis Hgr : ngroups V = ngroups W.
  Hypothesis Hnam : names V = names W.
  Lemma len_eq : inlen V = inlen W.
  Proof. unfold inlen. rewrite Hin. reflexivity. Qed.
  Lemma char_eq : forall i, char_at V i = char_at W i.
  Proof. intros. unfold char_at. rewrite Hin. reflexivity. Qed.
  Lemma char_in : forall i, i < n -> In (char_at W i) (input W).
  Proof. intros i H. apply nth_In. exact H. Qed.
  Notation ahead_of := (ahead_of W).
  Definition same_on (m m' : matcher) (fwd : bool) (b : bool) : Prop := forall x c c', e x <= n ->
    (forall y, ahead_of fwd (e x) (e y) -> (b = true -> e y <> e x) -> c y = c' y) -> m x c = m' x c'.
  Lemma ahead_between : forall fwd i j k, ahead_of fwd i j -> ahead_of fwd j k ->
    ahead_of fwd i k /\ (i <> j -> i <> k) /\ (j <> k -> i <> k).
  Proof. intros [|] i j k [A B] [C D]; repeat split; lia. Qed.
  (** one of the matchers in the row consumes *)
  Lemma same_row : forall fwd d ms ms' bs, Forall2 (fun mm b => same_on (fst mm) (snd mm) fwd b) (combine ms ms') bs ->
    length ms = length ms' -> same_on (in_row d ms) (in_row d ms') fwd (existsb (fun b => b) bs).
  Proof.
    intros fwd d. induction ms as [|m ms IH]; intros [|m' ms'] bs F L; try discriminate.
    - inversion F; subst. intros x c c' Hx H. cbn [in_row]. apply H; [destruct fwd; split; auto|]. discriminate.
    - cbn [combine] in F. inversion F as [|? b ? bs' Hm Ht]; subst. cbn [fst snd] in Hm.
      specialize (IH ms' bs' Ht ltac:(simpl in L; lia)).
      intros x c c' Hx H. cbn [in_row existsb] in *. destruct d.
      + apply Hm; auto. intros y Ay Ny. apply IH; [destruct Ay; auto|]. intros z Az Nz.
        destruct (ahead_between fwd _ _ _ Ay Az) as (A1 & A2 & A3).
        apply H; auto. intros Hb. apply orb_prop in Hb. intros Q. symmetry in Q. revert Q.
        destruct Hb as [Hb|Hb]; [apply A2|apply A3]; intros Q; [apply (Ny Hb)|apply (Nz Hb)]; auto.
      + apply IH; auto. intros y Ay Ny. apply Hm; [destruct Ay; auto|]. intros z Az Nz.
        destruct (ahead_between fwd _ _ _ Ay Az) as (A1 & A2 & A3).
        apply H; auto. intros Hb. apply orb_prop in Hb. intros Q. symmetry in Q. revert Q.
        destruct Hb as [Hb|Hb]; [apply A3|apply A2]; intros Q; [apply (Nz Hb)|apply (Ny Hb)]; auto.
  Qed.
  (** each matcher of the disjunction consumes *)
  Lemma same_turn : forall fwd ms ms' bs, Forall2 (fun mm b => same_on (fst mm) (snd mm) fwd b) (combine ms ms') bs ->
    length ms = length ms' ->
    same_on (in_turn ms) (in_turn ms') fwd (negb (match bs with [] => true | _ => false end) && forallb (fun b => b) bs).
  Proof.
    intros fwd. induction ms as [|m ms IH]; intros [|m' ms'] bs F L; try discriminate.
    - inversion F; subst. intros x c c' Hx H. cbn [in_turn]. apply H; [destruct fwd; split; auto|]. discriminate.
    - cbn [combine] in F. inversion F as [|? b ? bs' Hm Ht]; subst. cbn [fst snd] in Hm.
      destruct ms as [|m2 ms]; destruct ms' as [|m2' ms']; try discriminate.
      + inversion Ht; subst. cbn [in_turn forallb negb andb]. rewrite andb_true_r. exact Hm.
      + assert (Nb : match bs' with [] => true | _ => false end = false).
        { cbn [combine] in Ht. inversion Ht. reflexivity. }
        specialize (IH (m2' :: ms') bs' Ht ltac:(simpl in *; lia)). rewrite Nb in IH. cbn [negb andb] in IH.
        intros x c c' Hx H. cbn [negb andb forallb] in H.
        change (in_turn (m :: m2 :: ms) x c) with (m x c orelse in_turn (m2 :: ms) x c).
        change (in_turn (m' :: m2' :: ms') x c') with (m' x c' orelse in_turn (m2' :: ms') x c').
        rewrite (Hm x c c'), (IH x c c'); auto.
        * intros y Ay Ny. apply H; auto. intros Hb. apply andb_prop in Hb. apply Ny. tauto.
        * intros y Ay Ny. apply H; auto. intros Hb. apply andb_prop in Hb. apply Ny. tauto.
  Qed.
  Lemma same_repeat : forall fwd m m' b greedy gs ge, same_on m m' fwd b ->
    forall F mn mx x c c', mn + dist W fwd (e x) < F -> e x <= n -> (mx = Some mn \/ b = true) ->
    match mx with Some k => mn <= k | None => True end ->
    (forall y, ahead_of fwd (e x) (e y) -> ((1 <=? mn) && b = true -> e y <> e x) -> c y = c' y) ->
    repeat_matcher true F m mn mx greedy gs ge x c = repeat_matcher false F m' mn mx greedy gs ge x c'.
  Proof.
    intros fwd m m' b greedy gs ge Hm. induction F as [|F IH]; intros mn mx x c c' HF Hx Hg Mn H; [reflexivity|].
    assert (Self : ahead_of fwd (e x) (e x)) by (destruct fwd; split; auto).
    assert (C0 : mn = 0 -> c x = c' x).
    { intros ->. apply H; auto. cbn. discriminate. }
    cbn [repeat_matcher].
    destruct (match mx with Some 0 => true | _ => false end) eqn:Ez.
    { apply C0. destruct mx as [[|mx]|]; try discriminate. lia. }
    match goal with |- context [m _ ?d0] => set (d := d0) end.
    match goal with |- context [m' _ ?d0] => set (d' := d0) end.
    assert (Q : m {| e := e x; cs := clear_caps gs ge (cs x) |} d = m' {| e := e x; cs := clear_caps gs ge (cs x) |} d').
    { apply Hm; auto. cbn [e]. intros y Ay Ny. unfold d, d'.
      assert (Hy : e y <= n) by (destruct Ay; auto).
      assert (Rec : (mn = 0 -> e y <> e x) ->
        repeat_matcher true F m (mn - 1) (match mx with Some k => Some (k - 1) | None => None end) greedy gs ge y c =
        repeat_matcher false F m' (mn - 1) (match mx with Some k => Some (k - 1) | None => None end) greedy gs ge y c').
      { intros Nz. apply IH; auto.
        - destruct Ay as [An Ay]. unfold dist in *. destruct fwd; destruct mn; try specialize (Nz eq_refl); lia.
        - destruct Hg as [-> | Hg]; auto.
        - destruct mx; auto. lia.
        - intros z Az Nn. destruct (ahead_between fwd _ _ _ Ay Az) as (A1 & A2 & A3).
          apply H; auto. intros Hb. apply andb_prop in Hb. intros Q. symmetry in Q. revert Q.
          apply A2. intros Q. apply Ny; [tauto|auto]. }
      destruct (Nat.eqb_spec (e y) (e x)) as [Eq|Nq].
      - assert (Hb : b <> true) by (intros Hb; apply Ny; auto).
        destruct Hg as [-> | Hg]; [|tauto]. destruct mn as [|mn]; [discriminate|]. cbn [Nat.eqb andb].
        destruct (Nat.leb_spec (S mn) 1) as [L|L]; cbn [andb].
        + assert (mn = 0) by lia. subst mn. destruct F as [|F]; [lia|]. cbn [repeat_matcher Nat.sub].
          apply H; auto.
        + apply Rec. lia.
      - rewrite !andb_false_r. apply Rec. auto. }
    rewrite Q. destruct (Nat.eqb_spec mn 0) as [Z0|N0]; cbn [negb]; auto.
    rewrite (C0 Z0). reflexivity.
  Qed.
  Definition SA (a : atom) : Prop := forall g g' fwd, num_atom a g = Some g' -> steady a = true ->
    same_on (m_atom W true a fwd) (m_atom V false a fwd) fwd (consuming a).
  Definition ST (t : term) : Prop := forall g g' fwd, num_term t g = Some g' -> steady_t t = true ->
    same_on (m_term W true t fwd) (m_term V false t fwd) fwd (consuming_t t).
  Lemma same_terms : forall l g g' fwd d, Forall ST l -> num_terms l (Some g) = Some g' -> forallb steady_t l = true ->
    d = fwd ->
    same_on (m_terms W true l d) (m_terms V false l d) fwd (existsb consuming_t l).
  Proof.
    intros l g g' fwd d F N B ->.
    assert (Eb : existsb consuming_t l = existsb (fun b => b) (map consuming_t l)).
    { clear. induction l; simpl; auto. rewrite IHl. reflexivity. }
    rewrite Eb. apply same_row; [|rewrite !map_length; reflexivity].
    revert g g' N B. induction F as [|t l Ht Fl IH]; intros g g' N B; cbn [map combine]; constructor.
    - apply num_terms_cons in N. destruct N as (h & A & N). cbn in B. apply andb_prop in B.
      cbn [fst snd]. eapply Ht; eauto. tauto.
    - apply num_terms_cons in N. destruct N as (h & A & N). cbn in B. apply andb_prop in B.
      eapply IH; eauto; try tauto. clear. induction l; simpl; auto. rewrite IHl. reflexivity.
  Qed.
  Lemma same_pat : forall p g g' fwd, Forall (Forall ST) p -> num_pat p (Some g) = Some g' ->
    forallb (forallb steady_t) p = true ->
    same_on (m_pat W true p fwd) (m_pat V false p fwd) fwd
      (negb (match p with [] => true | _ => false end) && forallb (existsb consuming_t) p).
  Proof.
    intros p g g' fwd F N B.
    assert (Eb : negb (match p with [] => true | _ => false end) && forallb (existsb consuming_t) p =
      negb (match map (existsb consuming_t) p with [] => true | _ => false end) && forallb (fun b => b) (map (existsb consuming_t) p)).
    { clear. destruct p; auto. cbn [map negb andb forallb]. f_equal. induction p; simpl; auto. rewrite IHp. reflexivity. }
    rewrite Eb. clear Eb. apply same_turn; [|rewrite !map_length; reflexivity].
    revert g g' N B. induction F as [|l p Hl Fp IH]; intros g g' N B; cbn [map combine]; constructor.
    - apply num_pat_cons in N. destruct N as (h & A & N). cbn in B. apply andb_prop in B.
      cbn [fst snd]. eapply same_terms; eauto. tauto.
    - apply num_pat_cons in N. destruct N as (h & A & N). cbn in B. apply andb_prop in B.
      eapply IH; eauto; tauto.
  Qed.
  Lemma all_same : (forall a, SA a) /\ (forall t, ST t) /\ (forall p, Forall (Forall ST) p).
  Proof.
    assert (Hset : forall a, match a with AChar _ | AAll | AClass _ _ => True | _ => False end -> SA a).
    { intros a H g g' fwd N B x c c' Hx Hc.
      assert (Q : set_matcher W a fwd x c = set_matcher V a fwd x c').
      { assert (Ca : consuming a = true) by (destruct a; tauto || reflexivity).
        unfold set_matcher. rewrite len_eq. destruct fwd.
        - destruct (Nat.ltb_spec (e x) n); auto. rewrite char_eq, <- Hmem by (apply char_in; auto).
          destruct (member W a _); auto. apply Hc; cbn [e]; [split; lia|lia].
        - destruct (e x) as [|i] eqn:Ex; auto. rewrite char_eq, <- Hmem by (apply char_in; lia).
          destruct (member W a _); auto. apply Hc; cbn [e]; [split; lia|lia]. }
      destruct a; try tauto; exact Q. }
    assert (Hstay : forall a fwd x (c c' : cont), (forall y, ahead_of fwd (e x) (e y) -> (consuming a = true -> e y <> e x) -> c y = c' y) ->
       consuming a = false -> forall y, ahead_of fwd (e x) (e y) -> c y = c' y).
    { intros a fwd x c c' Hc Ca y Ay. apply Hc; auto. congruence. }
    assert (Hchk : forall a, match a with ALineStart | ALineEnd | AWordB | ANotWordB => True | _ => False end -> SA a).
    { intros a H g g' fwd N B x c c' Hx Hc.
      assert (Ca : consuming a = false) by (destruct a; tauto || reflexivity).
      assert (Q : c x = c' x) by (eapply Hstay; eauto; destruct fwd; split; auto).
      assert (Q1 : at_start V (e x) = at_start W (e x)).
      { unfold at_start. destruct (e x); auto. rewrite Hmul, char_eq. reflexivity. }
      assert (Q2 : at_end V (e x) = at_end W (e x)).
      { unfold at_end. rewrite len_eq, Hmul, char_eq. reflexivity. }
      assert (Q3 : word_before V (e x) = word_before W (e x)).
      { unfold word_before. destruct (e x) eqn:Ex; auto. rewrite char_eq. symmetry. apply Hword. apply char_in. lia. }
      assert (Q4 : word_at V (e x) = word_at W (e x)).
      { unfold word_at. rewrite len_eq, char_eq. destruct (Nat.ltb_spec (e x) n); auto. cbn [andb].
        symmetry. apply Hword. apply char_in. auto. }
      destruct a; try tauto; cbn [m_atom]; unfold assertion; rewrite ?Q1, ?Q2, ?Q3, ?Q4, Q; reflexivity. }
    assert (Hback : forall a, match a with ABack _ | AName _ => True | _ => False end -> SA a).
    { intros a H g g' fwd N B x c c' Hx Hc.
      assert (Ca : consuming a = false) by (destruct a; tauto || reflexivity).
      specialize (Hstay a fwd x c c' Hc Ca).
      assert (Q : forall r, back_matcher W r fwd x c = back_matcher V r fwd x c').
      { intros [[rs re]|]; unfold back_matcher.
        - rewrite len_eq.
          assert (F : forall f h l, (forall i : nat, f i = h i) -> forallb f l = forallb h l).
          { intros f h l Hf. induction l as [|a0 l IH]; cbn [forallb]; auto. rewrite Hf, IH. reflexivity. }
          rewrite (F (fun i => (canon V (char_at V (rs + i)) =? canon V (char_at V (e x + i)))%Z)
            (fun i => (canon W (char_at W (rs + i)) =? canon W (char_at W (e x + i)))%Z))
            by (intros; rewrite !Hcan, !char_eq; reflexivity).
          rewrite (F (fun i => (canon V (char_at V (rs + i)) =? canon V (char_at V (e x - (re - rs) + i)))%Z)
            (fun i => (canon W (char_at W (rs + i)) =? canon W (char_at W (e x - (re - rs) + i)))%Z))
            by (intros; rewrite !Hcan, !char_eq; reflexivity).
          destruct fwd.
          + destruct (Nat.leb_spec (e x + (re - rs)) n); auto. destruct (forallb _ _); auto. apply Hstay. cbn [e]. split; lia.
          + destruct (Nat.leb_spec (re - rs) (e x)); auto. destruct (forallb _ _); auto. apply Hstay. cbn [e]. split; lia.
        - apply Hstay. destruct fwd; split; auto. }
      destruct a; try tauto; cbn [m_atom]; rewrite ?Hnam; apply Q. }
    assert (Hpat : forall p, Forall (Forall ST) p -> SA (APat p)).
    { intros p F g g' fwd N B. exact (same_pat p g g' fwd F N B). }
    assert (Hgroup : forall i p, Forall (Forall ST) p -> SA (AGroup i p)).
    { intros i p F g g' fwd N B. cbn [num_atom] in N. destruct (i =? g); [|discriminate].
      intros x c c' Hx Hc. apply (same_pat p (S g) g' fwd F N B); auto. }
    assert (Hlook : forall ah ng p, Forall (Forall ST) p -> SA (ALook ah ng p)).
    { intros ah ng p F g g' fwd N B x c c' Hx Hc.
      pose proof (same_pat p g g' ah F N B x Found Found Hx ltac:(reflexivity)) as Q.
      assert (R : forall U l y, m_atom U l (ALook ah ng p) fwd x y =
        match m_pat U l p ah x Found with
          | Out => Out
          | Found z => if ng then Failure else y (St (e x) (cs z))
          | Failure => if ng then y x else Failure
          end) by reflexivity.
      rewrite !R, Q.
      assert (Sf : forall y, e y = e x -> c y = c' y).
      { intros y Ey. apply Hc; [rewrite Ey; destruct fwd; split; auto|]. cbn. discriminate. }
      destruct (m_pat V false p ah x Found); auto; destruct ng; auto. }
    assert (Hterm : forall a mn mx gs ge g, SA a -> ST (Term a mn mx gs ge g)).
    { intros a mn mx gs ge g H g0 g' fwd N B.
      cbn [num_term] in N. destruct (gs =? g0); [|discriminate]. cbn [andb] in N.
      destruct (match mx with Some m => mn <=? m | None => true end) eqn:Em; [|discriminate].
      destruct (num_atom a g0) as [h|] eqn:Na; [|discriminate].
      assert (Mn : match mx with Some m => mn <= m | None => True end).
      { destruct mx; auto. apply Nat.leb_le. auto. }
      cbn [steady_t] in B. apply andb_prop in B. destruct B as [B1 B2].
      specialize (H g0 h fwd Na B1).
      assert (R : same_on (repeat_matcher true (mn + n + 2) (m_atom W true a fwd) mn mx g gs ge)
                          (repeat_matcher false (mn + n + 2) (m_atom V false a fwd) mn mx g gs ge) fwd ((1 <=? mn) && consuming a)).
      { intros x c c' Hx Hc. apply (same_repeat fwd _ _ (consuming a)); auto.
        - unfold dist. destruct fwd; lia.
        - apply orb_prop in B2. destruct B2 as [B2|B2]; auto. left. destruct mx; [|discriminate].
          apply Nat.eqb_eq in B2. congruence. }
      rewrite <- len_eq in R at 2.
      destruct (Nat.eq_dec mn 1) as [->|N1].
      2:{ destruct mn as [|[|mn]]; try exact R; lia. }
      destruct mx as [m|]; [|exact R]. destruct (Nat.eq_dec m 1) as [->|N2].
      2:{ destruct m as [|[|m]]; try exact R; lia. }
      exact H. }
    split; [|split]; [apply atom_tree with (Q := ST)|apply term_tree with (P := SA)|apply pat_tree with (P := SA)];
      intros; auto; try (apply Hset; exact I); try (apply Hchk; exact I); try (apply Hback; exact I).
  Qed.
  Theorem match_same : forall p i g, well_numbered p g -> forallb (forallb steady_t) p = true -> i <= n ->
    m_match W true p i = m_match V false p i.
  Proof.
    intros p i g Wn B Hi. unfold m_match. rewrite Hgr.
    apply (same_pat p 1 g true (proj2 (proj2 all_same) p) Wn B); auto.
  Qed.
End same.
