From Coq Require Import List Bool Arith ZArith Lia.
Import ListNotations.
From Verif Require Import GcModel GcSpec.

Definition cnt (f : nat -> bool) (l : list nat) : nat := length (filter (fun t => negb (f t)) l).
Lemma upd1_same : forall f t b, upd1 f t b t = b.
Proof. intros f t b. unfold upd1. rewrite Nat.eqb_refl. reflexivity. Qed.
Lemma upd1_other : forall f t b x, x <> t -> upd1 f t b x = f x.
Proof. intros f t b x N. unfold upd1. rewrite (proj2 (Nat.eqb_neq x t) N). reflexivity. Qed.
Lemma upd1_true : forall f t x, upd1 f t true x = true <-> x = t \/ f x = true.
Proof. intros f t x. unfold upd1. destruct (Nat.eqb_spec x t); split; intro H; auto. destruct H; [contradiction | assumption]. Qed.
Lemma cnt_same : forall f g l, (forall t, In t l -> f t = g t) -> cnt f l = cnt g l.
Proof.
  intros f g l H. unfold cnt. induction l as [|a l IH]; [reflexivity|]. cbn. rewrite (H a (or_introl eq_refl)). destruct (negb (g a)); cbn; rewrite IH; auto; intros t Ht; apply H; right; exact Ht.
Qed.
Lemma cnt_upd : forall f l t, NoDup l -> In t l -> f t = false -> S (cnt (upd1 f t true) l) = cnt f l.
Proof.
  intros f l t ND. induction ND as [|a l NI ND IH]; intros H F; [destruct H|]. unfold cnt in *. cbn [filter]. destruct (Nat.eq_dec a t) as [-> | N].
  - rewrite upd1_same, F. cbn [negb length]. f_equal. apply (cnt_same (upd1 f t true) f l). intros x Hx. apply upd1_other. congruence.
  - rewrite upd1_other by exact N. destruct H as [H | H]; [contradiction|]. destruct (negb (f a)); cbn [length]; rewrite <- (IH H F); reflexivity.
Qed.
Lemma cnt_le : forall f l, cnt f l <= length l.
Proof. intros f l. unfold cnt. induction l as [|a l IH]; [cbn; lia|]. cbn. destruct (negb (f a)); cbn; lia. Qed.
Lemma cnt_mono : forall f g l, (forall t, f t = true -> g t = true) -> cnt g l <= cnt f l.
Proof. intros f g l H. unfold cnt. induction l as [|a l IH]; [cbn; lia|]. cbn. pose proof (H a) as Ha. destruct (f a), (g a); cbn; lia || (specialize (Ha eq_refl); discriminate). Qed.

Section Core.
  Variables (kids : nat -> list nat) (cap : nat) (things roots : list nat).
  Hypothesis ND : NoDup things.
  Hypothesis CL : closed kids roots things.
  Notation L := (live kids roots).

  Lemma live_in : forall t, L t -> In t things.
  Proof. intros t H. induction H as [t H|t u H IH K]; [apply CL; exact H | eapply CL; eassumption]. Qed.

  (** the state between scans; [pend] are the things the current list walk has still to visit *)
  Record Inv (pend : list nat) (s : gstate) : Prop := {
    i_live : forall t, mk s t = true -> L t;
    i_sc : forall t, sc s t = true -> mk s t = true;
    i_stk : forall t, In t (stk s) -> mk s t = true;
    i_kids : forall t u, sc s t = true -> In u (kids t) -> mk s u = true;
    i_todo : forall t, mk s t = true -> sc s t = false -> In t (stk s) \/ full s = true \/ In t pend
  }.
  Definition measure (s : gstate) : nat := length (stk s) + cnt (mk s) things.
  (** what marking preserves *)
  Record Ext (s s' : gstate) : Prop := {
    e_mk : forall t, mk s t = true -> mk s' t = true;
    e_sc : forall t, sc s' t = sc s t;
    e_stk : forall t, In t (stk s) -> In t (stk s');
    e_full : full s = true -> full s' = true;
    e_meas : measure s' <= measure s
  }.
  Lemma ext_refl : forall s, Ext s s.
  Proof. intro s. constructor; auto. Qed.
  Lemma ext_trans : forall a b c, Ext a b -> Ext b c -> Ext a c.
  Proof. intros a b c [A1 A2 A3 A4 A5] [B1 B2 B3 B4 B5]. constructor; auto; [intro t; rewrite B2; apply A2 | lia]. Qed.
  Lemma mark_ext : forall s t, In t things -> Ext s (mark cap s t) /\ mk (mark cap s t) t = true.
  Proof.
    intros s t T. unfold mark. destruct (mk s t) eqn:M; [split; [apply ext_refl | exact M]|]. pose proof (cnt_upd (mk s) things t ND T M) as C.
    destruct (length (stk s) <? cap); cbn [mk]; (split; [|apply upd1_same]); constructor; cbn [mk sc stk full]; auto; try (intros x H; apply upd1_true; auto); try (intros x H; right; exact H);
      unfold measure; cbn [mk stk length]; lia.
  Qed.
  Lemma mark_new : forall s t x, mk (mark cap s t) x = true -> mk s x = true \/ x = t.
  Proof.
    intros s t x. unfold mark. destruct (mk s t) eqn:M; [auto|]. destruct (length (stk s) <? cap); cbn [mk]; intro H; apply upd1_true in H; tauto.
  Qed.
  Lemma mark_todo : forall s t x, mk (mark cap s t) x = true -> mk s x = false -> In x (stk (mark cap s t)) \/ full (mark cap s t) = true.
  Proof.
    intros s t x. unfold mark. destruct (mk s t) eqn:M; [congruence|]. destruct (length (stk s) <? cap); cbn [mk stk full]; intros H N; [|auto].
    apply upd1_true in H. destruct H as [-> | H]; [left; left; reflexivity | congruence].
  Qed.
  Lemma mark_stk : forall s t x, In x (stk (mark cap s t)) -> In x (stk s) \/ x = t.
  Proof. intros s t x. unfold mark. destruct (mk s t); [auto|]. destruct (length (stk s) <? cap); cbn [stk]; [intros [<- | H]; auto | auto]. Qed.

  Lemma marks_spec : forall l s, (forall t, In t l -> In t things) ->
    let s' := fold_left (mark cap) l s in
    Ext s s' /\ (forall t, In t l -> mk s' t = true) /\ (forall x, mk s' x = true -> mk s x = true \/ In x l) /\
    (forall x, mk s' x = true -> mk s x = false -> In x (stk s') \/ full s' = true) /\ (forall x, In x (stk s') -> In x (stk s) \/ In x l).
  Proof.
    induction l as [|t l IH]; intros s IN; cbn [fold_left].
    - split; [apply ext_refl|]. split; [intros t []|]. split; [auto|]. split; [congruence | auto].
    - destruct (mark_ext s t (IN t (or_introl eq_refl))) as [E1 M1]. destruct (IH (mark cap s t)) as (E2 & A & B & C & D); [intros x Hx; apply IN; right; exact Hx|].
      split; [eapply ext_trans; eassumption|]. split; [|split; [|split]].
      + intros x [<- | H]; [apply (e_mk _ _ E2); exact M1 | apply A; exact H].
      + intros x H. destruct (B x H) as [H1 | H1]; [|right; right; exact H1]. destruct (mark_new s t x H1) as [H2 | ->]; [left; exact H2 | right; left; reflexivity].
      + intros x H N. destruct (mk (mark cap s t) x) eqn:M; [|apply C; assumption]. destruct (mark_todo s t x M N) as [H1 | H1]; [left; apply (e_stk _ _ E2); exact H1 | right; apply (e_full _ _ E2); exact H1].
      + intros x H. destruct (D x H) as [H1 | H1]; [|right; right; exact H1]. destruct (mark_stk s t x H1) as [H2 | ->]; [left; exact H2 | right; left; reflexivity].
  Qed.

  (** scanned and marked things stay so *)
  Definition grow (s s' : gstate) : Prop := (forall x, sc s x = true -> sc s' x = true) /\ (forall x, mk s x = true -> mk s' x = true).
  Lemma grow_refl : forall s, grow s s.
  Proof. intro s. split; auto. Qed.
  Lemma grow_trans : forall a b c, grow a b -> grow b c -> grow a c.
  Proof. intros a b c [A B] [C D]. split; auto. Qed.

  Lemma scan_spec : forall pend s t, L t ->
    (forall x, mk s x = true -> L x) -> (forall x, sc s x = true -> mk s x = true) -> (forall x, In x (stk s) -> mk s x = true) ->
    (forall x u, sc s x = true -> In u (kids x) -> mk s u = true) -> mk s t = true ->
    (forall x, mk s x = true -> sc s x = false -> x <> t -> In x (stk s) \/ full s = true \/ In x pend) ->
    Inv pend (scan kids cap s t) /\ measure (scan kids cap s t) <= measure s /\ sc (scan kids cap s t) t = true /\ grow s (scan kids cap s t).
  Proof.
    intros pend s t LT I1 I2 I3 I4 MT I5. unfold scan. set (s0 := {| mk := mk s; sc := upd1 (sc s) t true; stk := stk s; full := full s |}).
    assert (KT : forall u, In u (kids t) -> In u things) by (intros u Hu; apply live_in; eapply live_kid; eassumption).
    destruct (marks_spec (kids t) s0 KT) as (E & A & B & C & D). set (s' := fold_left (mark cap) (kids t) s0) in *.
    pose proof (e_sc _ _ E) as ES. cbn [sc s0] in ES.
    split; [constructor|split; [|split]].
    - intros x H. destruct (B x H) as [H1 | H1]; [apply I1; exact H1 | eapply live_kid; eassumption].
    - intros x H. rewrite ES in H. apply upd1_true in H. apply (e_mk _ _ E). cbn [mk s0]. destruct H as [-> | H]; [exact MT | apply I2; exact H].
    - intros x H. destruct (D x H) as [H1 | H1]; [apply (e_mk _ _ E); apply I3; exact H1 | apply A; exact H1].
    - intros x u H K. rewrite ES in H. apply upd1_true in H. destruct H as [-> | H]; [apply A; exact K | apply (e_mk _ _ E); eapply I4; eassumption].
    - intros x H N. rewrite ES in N. assert (NT : x <> t) by (intros ->; rewrite upd1_same in N; discriminate). rewrite upd1_other in N by exact NT.
      destruct (mk s x) eqn:M; [|destruct (C x H M); auto]. destruct (I5 x M N NT) as [H1 | [H1 | H1]]; [left; apply (e_stk _ _ E); exact H1 | right; left; apply (e_full _ _ E); exact H1 | auto].
    - pose proof (e_meas _ _ E) as M. unfold measure in *. cbn [mk stk s0] in M. exact M.
    - rewrite ES. apply upd1_same.
    - split; [intros x H; rewrite ES; apply upd1_true; right; exact H | intros x H; apply (e_mk _ _ E); exact H].
  Qed.

  Lemma drain_spec : forall fuel s, Inv [] s -> measure s <= fuel ->
    exists s', drain fuel kids cap s = Some s' /\ Inv [] s' /\ stk s' = [] /\ measure s' <= measure s /\ grow s s'.
  Proof.
    induction fuel as [|f IH]; intros s IV M.
    - destruct s as [m c k b]. destruct k as [|t r]; [|unfold measure in M; cbn in M; lia]. eexists. split; [reflexivity|]. split; [exact IV|]. split; [reflexivity|]. split; [lia | apply grow_refl].
    - destruct (stk s) as [|t r] eqn:E; cbn [drain]; rewrite E; [exists s; split; [reflexivity|]; split; [exact IV|]; split; [exact E|]; split; [lia | apply grow_refl]|].
      pose proof (i_stk _ _ IV t) as MT. rewrite E in MT. specialize (MT (or_introl eq_refl)).
      set (s0 := {| mk := mk s; sc := sc s; stk := r; full := full s |}).
      destruct (scan_spec [] s0 t) as (IV' & M' & _ & S').
      + apply (i_live _ _ IV t MT).
      + apply (i_live _ _ IV).
      + apply (i_sc _ _ IV).
      + intros x H. apply (i_stk _ _ IV). rewrite E. right. exact H.
      + apply (i_kids _ _ IV).
      + exact MT.
      + intros x H N NT. destruct (i_todo _ _ IV x H N) as [H1 | H1]; [|right; exact H1]. rewrite E in H1. destruct H1 as [H1 | H1]; [congruence | left; exact H1].
      + assert (MM : measure s = S (measure s0)) by (unfold measure; rewrite E; reflexivity).
        destruct (IH (scan kids cap s0 t) IV' ltac:(lia)) as (s' & E' & IV2 & ST & M2 & S2). exists s'. split; [exact E'|]. split; [exact IV2|]. split; [exact ST|]. split; [lia|].
        eapply grow_trans; [|exact S2]. exact S'.
  Qed.

  Lemma inv_weaken : forall p q s, (forall x, In x p -> In x q) -> Inv p s -> Inv q s.
  Proof. intros p q s H [A B C D E]. constructor; auto. intros t M N. destruct (E t M N) as [F | [F | F]]; auto. Qed.
  Lemma rescan_spec : forall l s, Inv l s -> (forall t, In t l -> In t things) ->
    Inv [] (rescan kids cap l s) /\ measure (rescan kids cap l s) <= measure s /\ grow s (rescan kids cap l s) /\
    (rescan kids cap l s = s \/ exists t, In t things /\ sc s t = false /\ sc (rescan kids cap l s) t = true).
  Proof.
    unfold rescan. induction l as [|t l IH]; intros s IV IN; cbn [fold_left]; [split; [exact IV|]; split; [lia|]; split; [apply grow_refl | left; reflexivity]|].
    destruct (mk s t && negb (sc s t)) eqn:C.
    - apply andb_prop in C. destruct C as [M N]. apply negb_true_iff in N.
      destruct (scan_spec l s t) as (IV' & M' & ST & S').
      + apply (i_live _ _ IV t M).
      + apply (i_live _ _ IV).
      + apply (i_sc _ _ IV).
      + apply (i_stk _ _ IV).
      + apply (i_kids _ _ IV).
      + exact M.
      + intros x H1 H2 H3. destruct (i_todo _ _ IV x H1 H2) as [H | [H | [H | H]]]; auto; congruence.
      + destruct (IH (scan kids cap s t) IV' (fun x Hx => IN x (or_intror Hx))) as (A & B & D & _). split; [exact A|]. split; [lia|]. split; [eapply grow_trans; eassumption|].
        right. exists t. split; [apply IN; left; reflexivity|]. split; [exact N | apply (proj1 D); exact ST].
    - assert (IV' : Inv l s).
      { destruct IV as [A B D E F]. constructor; auto. intros x M N. destruct (F x M N) as [H | [H | [H | H]]]; auto. subst x. rewrite M, N in C. discriminate. }
      apply (IH s IV'). intros x Hx. apply IN. right. exact Hx.
  Qed.

  Lemma scan_things_spec : forall fuel s, Inv [] s -> measure s <= length things -> cnt (sc s) things + 1 <= fuel \/ stk s = [] /\ full s = false ->
    exists s', scan_things fuel kids cap things s = Some s' /\ Inv [] s' /\ stk s' = [] /\ full s' = false /\ grow s s'.
  Proof.
    induction fuel as [|f IH]; intros s IV M F.
    - destruct F as [F | [F1 F2]]; [lia|]. exists s. cbn [scan_things].
      assert (E : drain (length things) kids cap s = Some s) by (destruct (length things); cbn [drain]; rewrite F1; reflexivity). rewrite E, F2. split; [reflexivity|]. split; [exact IV|]. split; [exact F1|]. split; [reflexivity | apply grow_refl].
    - cbn [scan_things]. destruct (drain_spec (length things) s IV M) as (s1 & E & IV1 & ST & M1 & S1). rewrite E. destruct (full s1) eqn:F1; [|exists s1; auto].
      set (s2 := {| mk := mk s1; sc := sc s1; stk := stk s1; full := false |}).
      assert (IV2 : Inv things s2).
      { destruct IV1 as [A B C D G]. constructor; cbn [mk sc stk full s2]; auto. intros t Mt N. right. right. apply live_in. apply A. exact Mt. }
      destruct (rescan_spec things s2 IV2 (fun t H => H)) as (IV3 & M3 & S3 & CH). fold s2.
      assert (C1 : cnt (sc s1) things <= cnt (sc s) things) by (apply cnt_mono; exact (proj1 S1)).
      destruct (IH (rescan kids cap things s2) IV3) as (s' & E' & IV' & ST' & F' & S').
      + unfold measure in *. cbn [mk stk s2] in M3. lia.
      + destruct CH as [CH | (t & T & N & Y)].
        * right. rewrite CH. cbn [stk full s2]. split; [exact ST | reflexivity].
        * assert (FF : cnt (sc s) things + 1 <= S f) by (destruct F as [F | [K1 K2]]; [exact F|]; exfalso; assert (E9 : drain (length things) kids cap s = Some s) by (destruct (length things); cbn [drain]; rewrite K1; reflexivity); congruence).
          left. assert (cnt (sc (rescan kids cap things s2)) things < cnt (sc s1) things); [|lia].
          assert (cnt (sc (rescan kids cap things s2)) things <= cnt (upd1 (sc s1) t true) things).
          { apply cnt_mono. intros x H. apply upd1_true in H. destruct H as [-> | H]; [exact Y | apply (proj1 S3); exact H]. }
          pose proof (cnt_upd (sc s1) things t ND T N). lia.
      + exists s'. split; [exact E'|]. split; [exact IV'|]. split; [exact ST'|]. split; [exact F'|]. eapply grow_trans; [exact S1|]. eapply grow_trans; [|exact S']. exact S3.
  Qed.

  (** after marking, exactly the live things are marked *)
  Lemma mark_phase_spec : forall s, no_marks s ->
    exists s', mark_phase kids cap things roots s = Some s' /\ (forall t, mk s' t = true <-> L t) /\ stk s' = [] /\ full s' = false /\ (forall t, sc s' t = true -> L t).
  Proof.
    intros s [Z0 ST]. unfold mark_phase. set (s0 := {| mk := mk s; sc := sc s; stk := stk s; full := false |}).
    destruct CL as [C1 C2]. destruct (marks_spec roots s0 C1) as (E & A & B & C & D). set (s1 := fold_left (mark cap) roots s0) in *.
    assert (SC : forall t, sc s1 t = false) by (intro t; rewrite (e_sc _ _ E); apply Z0).
    destruct (scan_things_spec (S (length things)) s1) as (s' & E' & IV & ST' & F' & S').
    - constructor.
      + intros t H. destruct (B t H) as [H1 | H1]; [cbn [mk s0] in H1; rewrite (proj1 (Z0 t)) in H1; discriminate | apply live_root; exact H1].
      + intros t H. rewrite SC in H. discriminate.
      + intros t H. destruct (D t H) as [H1 | H1]; [cbn [stk s0] in H1; rewrite ST in H1; destruct H1 | apply A; exact H1].
      + intros t u H. rewrite SC in H. discriminate.
      + intros t H _. destruct (C t H) as [H1 | H1]; [cbn [mk s0]; apply Z0 | auto | auto].
    - pose proof (e_meas _ _ E) as M. unfold measure in *. cbn [stk mk s0] in M. rewrite ST in M. pose proof (cnt_le (mk s) things). cbn [length] in M. lia.
    - left. pose proof (cnt_le (sc s1) things). lia.
    - exists s'. split; [exact E'|]. split; [|split; [exact ST'|split; [exact F'|]]].
      + assert (CLOSED : forall t, mk s' t = true -> sc s' t = true).
        { intros t H. destruct (sc s' t) eqn:Q; [reflexivity|]. destruct (i_todo _ _ IV t H Q) as [H1 | [H1 | H1]]; [rewrite ST' in H1; destruct H1 | congruence | destruct H1]. }
        intro t. split; [apply (i_live _ _ IV)|]. intro H. induction H as [t H|t u H IH K].
        * apply (proj2 S'). apply A. exact H.
        * apply (i_kids _ _ IV t u); [apply CLOSED; exact IH | exact K].
      + intros t H. apply (i_live _ _ IV). apply (i_sc _ _ IV). exact H.
  Qed.

  Lemma sweep_spec : forall s, (forall t, mk s t = true <-> L t) -> (forall t, sc s t = true -> L t) ->
    (forall t, In t (fst (sweep things s)) <-> L t) /\ NoDup (fst (sweep things s)) /\ (forall t, mk (snd (sweep things s)) t = false /\ sc (snd (sweep things s)) t = false) /\ stk (snd (sweep things s)) = stk s.
  Proof.
    intros s M C. unfold sweep. cbn [fst snd mk sc stk].
    assert (A : forall t, In t (filter (mk s) things) <-> L t).
    { intro t. rewrite filter_In, M. split; [tauto|]. intro H. split; [apply live_in; exact H | exact H]. }
    split; [exact A|]. split; [apply NoDup_filter; exact ND|]. split; [|reflexivity].
    assert (EX : forall t, L t -> existsb (Nat.eqb t) (filter (mk s) things) = true) by (intros t H; apply existsb_exists; exists t; split; [apply A; exact H | apply Nat.eqb_refl]).
    intro t. split.
    - destruct (mk s t) eqn:Q; [|reflexivity]. rewrite (EX t (proj1 (M t) Q)). reflexivity.
    - destruct (sc s t) eqn:Q; [|reflexivity]. rewrite (EX t (C t Q)). reflexivity.
  Qed.
End Core.
Lemma collect_exact : forall kids cap things roots s, NoDup things -> closed kids roots things -> no_marks s ->
  exists ts s', collect kids cap things roots s = Some (ts, s') /\ (forall t, In t ts <-> live kids roots t) /\ (exists p, ts = filter p things) /\ no_marks s' /\ closed kids roots ts /\ NoDup ts.
Proof.
  intros kids cap things roots s ND CL NM. destruct (mark_phase_spec kids cap things roots ND CL s NM) as (s1 & E & M & ST & _ & C).
  destruct (sweep_spec kids things roots ND CL s1 M C) as (A & B & D & F). unfold collect. rewrite E. exists (fst (sweep things s1)), (snd (sweep things s1)).
  split; [rewrite <- surjective_pairing; reflexivity|]. split; [exact A|]. split; [exists (mk s1); reflexivity|]. split; [split; [exact D | rewrite F; exact ST]|]. split; [|exact B].
  split; [intros t H; apply A; apply live_root; exact H | intros t u H K; apply A; apply A in H; eapply live_kid; eassumption].
Qed.

(** ** The heap with weak references *)
Lemma eqb2 : forall a b c d, (a =? b) && (c =? d) = true <-> a = b /\ c = d.
Proof. intros. rewrite andb_true_iff, !Nat.eqb_eq. reflexivity. Qed.
Lemma eqb2_refl : forall a c, (a =? a) && (c =? c) = true.
Proof. intros. rewrite !Nat.eqb_refl. reflexivity. Qed.

Lemma nodup_map_filter : forall (A B : Type) (g : A -> B) (p : A -> bool) l, NoDup (map g l) -> NoDup (map g (filter p l)).
Proof.
  intros A B g p l. induction l as [|a l IH]; intro N; [constructor|]. cbn [map] in N. inversion N as [|? ? N1 N2]; subst. cbn [filter]. destruct (p a); [|apply IH; exact N2]. cbn [map]. constructor; [|apply IH; exact N2].
  intro H. apply N1. apply in_map_iff in H. destruct H as (x & E & H). rewrite <- E. apply filter_In in H. apply in_map. tauto.
Qed.

Record WF (m : mem) : Prop := {
  wf_nd : NoDup (things m);
  wf_closed : closed (scan_kids m) (all_roots m) (things m);
  wf_marks : no_marks (flags m);
  wf_weak : forall w, In w (weak m) -> In (w_base w) (things m) /\ In (w_ref w) (things m);
  wf_coll : forall b k v, In (b, k, v) (coll m) -> In {| w_base := b; w_ref := k; w_kind := WColl |} (weak m);
  wf_collnd : NoDup (map fst (coll m));
  wf_tnd : NoDup (map fst (target m));
  wf_tin : forall b x, In (b, x) (target m) -> In b (things m);
  wf_tgt : forall b r, In (b, Some r) (target m) -> In {| w_base := b; w_ref := r; w_kind := WObj |} (weak m);
  wf_wobj : forall b r, In {| w_base := b; w_ref := r; w_kind := WObj |} (weak m) -> In (b, Some r) (target m);
  wf_fnd : NoDup (map fst (funcs m));
  wf_fin : forall t, In t (map fst (funcs m)) -> In t (things m);
  wf_cbt : forall c, In c (cbs m) -> In (f_target c) (things m);
  wf_cbr : forall c, In c (cbs m) -> In (f_reg c) (map fst (funcs m))
}.

(** *** weak references after marking *)
Lemma solve_weak_spec : forall lv ws co tg,
  let '(ws', co', tg') := solve_weak lv ws co tg in
  ws' = filter (fun w => lv (w_base w) && lv (w_ref w)) ws /\
  co' = filter (fun e => negb (existsb (fun w => lv (w_base w) && negb (lv (w_ref w)) && match w_kind w with WColl => (fst (fst e) =? w_base w) && (snd (fst e) =? w_ref w) | WObj => false end) ws)) co /\
  tg' = map (fun e => if existsb (fun w => lv (w_base w) && negb (lv (w_ref w)) && match w_kind w with WObj => fst e =? w_base w | WColl => false end) ws then (fst e, None) else e) tg.
Proof.
  intros lv ws. induction ws as [|w ws IH]; intros co tg; cbn [solve_weak filter existsb].
  - split; [reflexivity|]. split; [cbn [negb]; induction co as [|e co IC]; [reflexivity | cbn [filter]; f_equal; exact IC] | symmetry; apply map_id].
  - destruct (lv (w_base w)) eqn:B; cbn [negb andb]; [|specialize (IH co tg); destruct (solve_weak lv ws co tg) as [[w' c'] t']; exact IH].
    destruct (lv (w_ref w)) eqn:R; cbn [negb andb].
    + specialize (IH co tg). destruct (solve_weak lv ws co tg) as [[w' c'] t']. destruct IH as (-> & -> & ->). auto.
    + destruct (w_kind w); cbn [orb].
      * specialize (IH co (clear_target tg (w_base w))). destruct (solve_weak lv ws co (clear_target tg (w_base w))) as [[w' c'] t']. destruct IH as (-> & -> & ->). split; [reflexivity|]. split; [reflexivity|].
        unfold clear_target. rewrite map_map. apply map_ext. intro e. destruct (fst e =? w_base w) eqn:Q; cbn [fst orb]; [|reflexivity]. destruct (existsb _ ws); reflexivity.
      * specialize (IH (del_entry co (w_base w) (w_ref w)) tg). destruct (solve_weak lv ws (del_entry co (w_base w) (w_ref w)) tg) as [[w' c'] t']. destruct IH as (-> & -> & ->). split; [reflexivity|]. split; [|reflexivity].
        unfold del_entry. clear. induction co as [|e co IH]; [reflexivity|]. cbn [filter]. destruct ((fst (fst e) =? w_base w) && (snd (fst e) =? w_ref w)) eqn:Q; cbn [negb orb filter]; [exact IH|].
        destruct (existsb _ ws); cbn [negb]; [exact IH | f_equal; exact IH].
Qed.

Lemma solve_final_spec : forall func lv (P : nat -> Prop) cs, (forall t, lv t = true <-> P t) -> (forall c, In c cs -> func (f_reg c) <> None) ->
  settle P func cs (fst (solve_final func lv cs)) (snd (solve_final func lv cs)) /\ fst (solve_final func lv cs) = filter (fun c => lv (f_target c)) cs.
Proof.
  intros func lv P cs LP. induction cs as [|c cs IH]; intro F; cbn [solve_final]; [split; [constructor | reflexivity]|].
  destruct IH as [IH1 IH2]; [intros x Hx; apply F; right; exact Hx|]. destruct (solve_final func lv cs) as [cs' js]. cbn [fst snd] in *. cbn [filter].
  destruct (lv (f_target c)) eqn:Q; cbn [fst snd].
  - split; [apply st_keep; [apply LP; exact Q | exact IH1] | f_equal; exact IH2].
  - destruct (func (f_reg c)) as [f|] eqn:E; [|exfalso; apply (F c (or_introl eq_refl) E)]. cbn [fst snd]. split; [|exact IH2]. apply st_due; [|exact E|exact IH1]. intro H. apply LP in H. congruence.
Qed.
Lemma settle_fun : forall P func cs a b a' b', settle P func cs a b -> settle P func cs a' b' -> a = a' /\ b = b'.
Proof.
  intros P func cs a b a' b' H. revert a' b'. induction H as [|c cs cs' js A H IH|c f cs cs' js A B H IH]; intros a' b' H'; inversion H'; subst; auto; try contradiction.
  - destruct (IH _ _ H5) as [-> ->]. auto.
  - destruct (IH _ _ H6) as [-> ->]. split; [reflexivity|]. congruence.
Qed.
Lemma settle_jobs : forall P func cs a b, settle P func cs a b -> forall j, In j b -> exists c, In c cs /\ func (f_reg c) = Some (fst j) /\ snd j = f_held c.
Proof.
  intros P func cs a b H. induction H as [|c cs cs' js A H IH|c f cs cs' js A B H IH]; intros j J; [destruct J| |].
  - destruct (IH j J) as (x & X & Y). exists x. split; [right; exact X | exact Y].
  - destruct J as [<- | J]; [exists c; cbn; auto|]. destruct (IH j J) as (x & X & Y). exists x. split; [right; exact X | exact Y].
Qed.

Lemma func_of_some : forall m r, In r (map fst (funcs m)) -> func_of m r <> None.
Proof.
  intros m r H. unfold func_of. destruct (find (fun x => fst x =? r) (funcs m)) eqn:E; [discriminate|]. intros _. apply in_map_iff in H. destruct H as (x & <- & H).
  pose proof (find_none _ _ E x H) as N. cbn in N. rewrite Nat.eqb_refl in N. discriminate.
Qed.
Lemma find_filter_fst : forall (A : Type) (p : nat -> bool) (l : list (nat * A)) r, p r = true -> find (fun x => fst x =? r) (filter (fun e => p (fst e)) l) = find (fun x => fst x =? r) l.
Proof.
  intros A p l r P. induction l as [|[a x] l IH]; [reflexivity|]. cbn [filter fst find]. destruct (Nat.eqb_spec a r) as [-> | N].
  - rewrite P. cbn [find fst]. rewrite Nat.eqb_refl. reflexivity.
  - destruct (p a); cbn [find fst]; [rewrite (proj2 (Nat.eqb_neq a r) N)|]; exact IH.
Qed.
Lemma exb_in : forall t ts, existsb (Nat.eqb t) ts = true <-> In t ts.
Proof. intros t ts. rewrite existsb_exists. split; [intros (x & H & E); apply Nat.eqb_eq in E; subst; exact H | intro H; exists t; split; [exact H | apply Nat.eqb_refl]]. Qed.

(** What a collection does, relative to reachability *)
Record collected (m m' : mem) : Prop := {
  c_things : forall t, In t (things m') <-> alive m t;
  c_order : exists p, things m' = filter p (things m);
  c_same : links m' = links m /\ roots m' = roots m;
  c_entries : forall e, In e (coll m') <-> In e (coll m) /\ alive m (fst (fst e)) /\ alive m (snd (fst e));
  c_target : forall b x, In (b, x) (target m') <-> alive m b /\ exists y, In (b, y) (target m) /\ x = match y with Some r => if existsb (Nat.eqb r) (things m') then Some r else None | None => None end;
  c_settle : exists due, settle (alive m) (func_of m) (cbs m) (cbs m') due /\ jobs m' = jobs m ++ due;
  c_func : forall r, alive m r -> func_of m' r = func_of m r
}.

Lemma gc_spec : forall cap m, WF m -> exists m', gc_run cap m = Some m' /\ collected m m' /\ WF m'.
Proof.
  intros cap m W. destruct (mark_phase_spec (scan_kids m) cap (things m) (all_roots m) (wf_nd _ W) (wf_closed _ W) (flags m) (wf_marks _ W)) as (s & E & M & ST & FU & C).
  destruct (sweep_spec (scan_kids m) (things m) (all_roots m) (wf_nd _ W) (wf_closed _ W) s M C) as (A & B & D & F).
  unfold gc_run. rewrite E. pose proof (solve_weak_spec (mk s) (weak m) (coll m) (target m)) as SW. destruct (solve_weak (mk s) (weak m) (coll m) (target m)) as [[ws co] tg].
  destruct SW as (SW1 & SW2 & SW3).
  assert (FN : forall c, In c (cbs m) -> func_of m (f_reg c) <> None) by (intros c H; apply func_of_some; apply (wf_cbr _ W c H)).
  destruct (solve_final_spec (func_of m) (mk s) (alive m) (cbs m) M FN) as [SF1 SF2]. destruct (solve_final (func_of m) (mk s) (cbs m)) as [cs js]. cbn [fst snd] in SF1, SF2.
  destruct (sweep (things m) s) as [ts s'] eqn:SWP. cbn [fst snd] in A, B, D, F.
  assert (TS : ts = filter (mk s) (things m)) by (unfold sweep in SWP; congruence).
  set (m' := {| things := ts; flags := s'; links := links m; roots := roots m; weak := ws; coll := filter (fun e => existsb (Nat.eqb (fst (fst e))) ts) co; target := filter (fun e => existsb (Nat.eqb (fst e)) ts) tg; funcs := filter (fun e => existsb (Nat.eqb (fst e)) ts) (funcs m); cbs := cs; jobs := jobs m ++ js |}).
  exists m'. split; [reflexivity|].
  assert (AL : forall t, existsb (Nat.eqb t) ts = true <-> alive m t) by (intro t; rewrite exb_in; apply A).
  assert (LT : forall t, alive m t -> In t (things m)) by (intros t H; apply (live_in (scan_kids m) (things m) (all_roots m) (wf_closed _ W) t H)).
  assert (FUNC : forall r, alive m r -> func_of m' r = func_of m r).
  { intros r H. unfold func_of, m'. cbn [funcs]. rewrite (find_filter_fst nat (fun x => existsb (Nat.eqb x) ts) (funcs m) r); [reflexivity|]. apply AL. exact H. }
  assert (KIDS : forall t, alive m t -> scan_kids m' t = scan_kids m t) by (intros t H; unfold scan_kids; rewrite (FUNC t H); reflexivity).
  assert (ENT : forall e, In e (coll m') <-> In e (coll m) /\ alive m (fst (fst e)) /\ alive m (snd (fst e))).
  { intros [[b k] v]. unfold m'. cbn [coll fst snd]. rewrite filter_In, SW2, filter_In. cbn [fst snd]. rewrite AL, negb_true_iff. split.
    - intros ((H1 & H2) & H3). split; [exact H1|]. split; [exact H3|]. apply M. destruct (mk s k) eqn:Q; [reflexivity|]. exfalso. rewrite <- not_true_iff_false in H2. apply H2. apply existsb_exists.
      exists {| w_base := b; w_ref := k; w_kind := WColl |}. split; [apply (wf_coll _ W b k v H1)|]. cbn [w_base w_ref w_kind]. rewrite (proj2 (M b) H3), Q, eqb2_refl. reflexivity.
    - intros (H1 & H2 & H3). split; [split; [exact H1|] | exact H2]. rewrite <- not_true_iff_false. intro X. apply existsb_exists in X. destruct X as ([wb wr wk] & _ & X). cbn [w_base w_ref w_kind] in X.
      destruct wk; [rewrite andb_false_r in X; discriminate|]. apply andb_prop in X. destruct X as [X1 X2]. apply eqb2 in X2. destruct X2 as [-> ->]. rewrite (proj2 (M wr) H3) in X1. rewrite andb_false_r in X1. discriminate. }
  assert (TGT : forall b x, In (b, x) (target m') <-> alive m b /\ exists y, In (b, y) (target m) /\ x = match y with Some r => if existsb (Nat.eqb r) ts then Some r else None | None => None end).
  { intros b x. unfold m'. cbn [target]. rewrite filter_In, SW3, in_map_iff. cbn [fst]. rewrite AL.
    assert (ONE : forall y, In (b, y) (target m) -> alive m b ->
      existsb (fun w => mk s (w_base w) && negb (mk s (w_ref w)) && match w_kind w with WObj => b =? w_base w | WColl => false end) (weak m) = match y with Some r => negb (existsb (Nat.eqb r) ts) | None => false end).
    { intros y Y AB. assert (UN : forall r, In {| w_base := b; w_ref := r; w_kind := WObj |} (weak m) -> y = Some r).
      { intros r H. pose proof (wf_wobj _ W b r H) as H2. pose proof (wf_tnd _ W) as N. clear - N Y H2. induction (target m) as [|[p q] l IH]; [destruct Y|]. cbn [map fst] in N. inversion N as [|? ? N1 N2]; subst.
        destruct Y as [Y | Y], H2 as [H2 | H2]; try congruence; [| |apply IH; assumption]; exfalso; apply N1; [injection Y as -> _ | injection H2 as -> _]; apply in_map_iff; eexists; split; try eassumption; reflexivity. }
      apply eq_iff_eq_true. rewrite existsb_exists. split.
      - intros ([wb wr wk] & H & X). cbn [w_base w_ref w_kind] in X. destruct wk; [|rewrite andb_false_r in X; discriminate]. apply andb_prop in X. destruct X as [X1 X2]. apply Nat.eqb_eq in X2. subst wb.
        rewrite (UN wr H). apply negb_true_iff. rewrite <- not_true_iff_false, AL. intro Q. apply M in Q. rewrite Q in X1. rewrite andb_false_r in X1. discriminate.
      - destruct y as [r|]; [|discriminate]. intro Q. exists {| w_base := b; w_ref := r; w_kind := WObj |}. split; [apply (wf_tgt _ W b r Y)|]. cbn [w_base w_ref w_kind]. rewrite (proj2 (M b) AB), Nat.eqb_refl.
        destruct (mk s r) eqn:Z; [|reflexivity]. apply M in Z. apply AL in Z. rewrite Z in Q. discriminate. }
    split.
    - intros (([b0 y] & H1 & H2) & H3). cbn [fst] in H1. assert (b0 = b) by (destruct (existsb _ (weak m)) in H1; congruence). subst b0. split; [exact H3|]. exists y. split; [exact H2|].
      rewrite (ONE y H2 H3) in H1. destruct y as [r|]; [|congruence]. destruct (existsb (Nat.eqb r) ts); cbn [negb] in H1; congruence.
    - intros (H3 & y & H2 & ->). split; [|exact H3]. exists (b, y). split; [|exact H2]. cbn [fst]. rewrite (ONE y H2 H3). destruct y as [r|]; [|reflexivity]. destruct (existsb (Nat.eqb r) ts); reflexivity. }
  split.
  - constructor; [exact A | exists (mk s); exact TS | split; reflexivity | exact ENT | exact TGT | exists js; split; [exact SF1 | reflexivity] | exact FUNC].
  - assert (CBL : forall c, In c (cbs m) -> forall t, In t (cb_roots c) -> alive m t).
    { intros c H t Ht. apply live_root. unfold all_roots. apply in_or_app. right. apply in_or_app. right. apply in_flat_map. exists c. split; assumption. }
    assert (CS : forall c, In c cs <-> In c (cbs m) /\ alive m (f_target c)) by (intro c; rewrite SF2, filter_In, M; reflexivity).
    constructor; unfold m'; cbn [things flags links roots weak coll target funcs cbs jobs].
    + exact B.
    + fold m'. split.
      * intros t H. unfold all_roots in H. unfold m' in H. cbn [roots jobs cbs] in H. apply A. apply in_app_or in H. destruct H as [H | H]; [apply live_root; apply in_or_app; left; exact H|].
        rewrite flat_map_app in H. apply in_app_or in H. destruct H as [H | H].
        -- apply in_app_or in H. destruct H as [H | H]; [apply live_root; apply in_or_app; right; apply in_or_app; left; exact H|].
           apply in_flat_map in H. destruct H as (j & J1 & J2). destruct (settle_jobs _ _ _ _ _ SF1 j J1) as (c & H1 & H2 & H3). destruct J2 as [<- | J2].
           ++ eapply live_kid; [apply (CBL c H1 (f_reg c)); left; reflexivity|]. unfold scan_kids. rewrite H2. apply in_or_app. right. left. reflexivity.
           ++ apply (CBL c H1). unfold cb_roots. right. apply in_or_app. left. rewrite <- H3. exact J2.
        -- apply in_flat_map in H. destruct H as (c & H1 & H2). apply CS in H1. apply (CBL c (proj1 H1) t H2).
      * intros t u H K. apply A in H. rewrite (KIDS t H) in K. apply A. eapply live_kid; eassumption.
    + split; [exact D | rewrite F; exact ST].
    + intros w H. rewrite SW1 in H. apply filter_In in H. destruct H as [_ H]. apply andb_prop in H. split; apply A; apply M; apply H.
    + intros b k v H. apply (ENT (b, k, v)) in H. cbn [fst snd] in H. destruct H as (H1 & H2 & H3). rewrite SW1. apply filter_In. split; [apply (wf_coll _ W b k v H1)|]. cbn [w_base w_ref]. rewrite (proj2 (M b) H2), (proj2 (M k) H3). reflexivity.
    + rewrite SW2. apply nodup_map_filter. apply nodup_map_filter. apply (wf_collnd _ W).
    + rewrite SW3. apply nodup_map_filter. rewrite map_map. erewrite map_ext; [apply (wf_tnd _ W)|]. intro e. cbn [fst]. destruct (existsb _ (weak m)); reflexivity.
    + intros b x H. apply (TGT b x) in H. apply A. apply H.
    + intros b r H. apply (TGT b (Some r)) in H. destruct H as (H1 & y & H2 & H3). destruct y as [r'|]; [|discriminate]. destruct (existsb (Nat.eqb r') ts) eqn:Q; [|discriminate]. injection H3 as <-.
      rewrite SW1. apply filter_In. split; [apply (wf_tgt _ W b r H2)|]. cbn [w_base w_ref]. apply AL in Q. rewrite (proj2 (M b) H1), (proj2 (M r) Q). reflexivity.
    + intros b r H. rewrite SW1 in H. apply filter_In in H. destruct H as [H1 H2]. cbn [w_base w_ref] in H2. apply andb_prop in H2. destruct H2 as [H2 H3]. apply M in H2. apply M in H3.
      apply (TGT b (Some r)). split; [exact H2|]. exists (Some r). split; [apply (wf_wobj _ W b r H1)|]. rewrite (proj2 (AL r) H3). reflexivity.
    + apply nodup_map_filter. apply (wf_fnd _ W).
    + intros t H. apply in_map_iff in H. destruct H as (x & <- & H). apply filter_In in H. apply exb_in. apply H.
    + intros c H. apply CS in H. apply A. apply H.
    + intros c H. apply CS in H. destruct H as [H _]. pose proof (wf_cbr _ W c H) as H1. apply in_map_iff in H1. destruct H1 as (x & X1 & X2). apply in_map_iff. exists x. split; [exact X1|]. apply filter_In. split; [exact X2|].
      apply AL. rewrite X1. apply (CBL c H). left. reflexivity.
Qed.
(** *** steps keep the heap well formed *)
Lemma replace_in : forall r k n cs c, In c (replace_cb r k n cs) -> In c cs \/ c = n.
Proof. intros r k n cs. induction cs as [|d cs IH]; intros c H; [destruct H|]. cbn [replace_cb] in H. destruct (same_token r k d); destruct H as [<- | H]; auto; [left; right; exact H | left; left; reflexivity | destruct (IH c H); [left; right; assumption | auto]]. Qed.
Lemma register_in : forall cs n c, In c (register cs n) -> In c cs \/ c = n.
Proof.
  intros cs n c H. unfold register in H. destruct (f_token n) as [k|]; [destruct (existsb _ cs); [eapply replace_in; exact H|]|]; apply in_app_or in H; destruct H as [H | [<- | []]]; auto.
Qed.
Lemma remove_in : forall r k cs c, In c (remove_cb r k cs) -> In c cs.
Proof. intros r k cs. induction cs as [|d cs IH]; intros c H; [destruct H|]. cbn [remove_cb] in H. destruct (same_token r k d); [right; exact H | destruct H as [<- | H]; [left; reflexivity | right; apply IH; exact H]]. Qed.
Lemma has_entry_spec : forall co b k, has_entry co b k = true <-> In (b, k) (map fst co).
Proof.
  intros co b k. unfold has_entry. rewrite existsb_exists, in_map_iff. split.
  - intros ([[x y] v] & H & E). cbn [fst snd] in E. apply eqb2 in E. destruct E as [-> ->]. exists (b, k, v). auto.
  - intros ([[x y] v] & E & H). cbn [fst] in E. injection E as -> ->. exists (b, k, v). split; [exact H|]. cbn. apply eqb2_refl.
Qed.
Lemma nodup_snoc : forall (A : Type) (l : list A) x, NoDup l -> ~ In x l -> NoDup (l ++ [x]).
Proof.
  intros A l x N H. induction l as [|a l IH]; cbn [app]; [constructor; [intros [] | constructor]|]. inversion N as [|? ? N1 N2]; subst. constructor.
  - intro C. apply in_app_or in C. destruct C as [C | [C | []]]; [apply N1; exact C | apply H; left; congruence].
  - apply IH; [exact N2 | intro C; apply H; right; exact C].
Qed.
Lemma is_wref_false : forall b k w, In (w_kind w) [WObj] -> is_wref b k w = false.
Proof. intros b k w [H | []]. unfold is_wref. rewrite <- H. apply andb_false_r. Qed.
Lemma is_wref_true : forall b k w, is_wref b k w = true <-> w = {| w_base := b; w_ref := k; w_kind := WColl |}.
Proof.
  intros b k [x y z]. unfold is_wref. cbn [w_base w_ref w_kind]. split.
  - intro H. apply andb_prop in H. destruct H as [H K]. apply eqb2 in H. destruct H as [-> ->]. destruct z; [discriminate | reflexivity].
  - intro H. injection H as -> -> ->. rewrite eqb2_refl. reflexivity.
Qed.

(** the parts of the heap other than weak references and callbacks *)
Lemma wf_with_cbs : forall m cs, WF m -> (forall c, In c cs -> In c (cbs m) \/ In (f_target c) (things m) /\ In (f_reg c) (map fst (funcs m)) /\ (forall t, In t (cb_roots c) -> In t (things m))) -> WF (with_cbs m cs).
Proof.
  intros m cs W H. destruct W as [W1 W2 W3 W4 W5 W6 W7 W8 W9 W10 W11 W12 W13 W14]. destruct W2 as [W2 W2'].
  constructor; auto; unfold with_cbs; cbn [things cbs funcs].
  - split; [|exact W2']. intros t T. unfold all_roots in T. cbn [roots jobs cbs] in T. apply in_app_or in T. destruct T as [T | T]; [apply W2; apply in_or_app; left; exact T|].
    apply in_app_or in T. destruct T as [T | T]; [apply W2; apply in_or_app; right; apply in_or_app; left; exact T|]. apply in_flat_map in T. destruct T as (c & C1 & C2).
    destruct (H c C1) as [K | (_ & _ & K)]; [|apply K; exact C2]. apply W2. apply in_or_app. right. apply in_or_app. right. apply in_flat_map. exists c. auto.
  - intros c C. destruct (H c C) as [K | (K & _)]; [apply W13; exact K | exact K].
  - intros c C. destruct (H c C) as [K | (_ & K & _)]; [apply W14; exact K | exact K].
Qed.

Lemma step_wf : forall m op, WF m -> mop_ok m op -> exists m', m_step m op = Some m' /\ WF m'.
Proof.
  intros m op W OK. destruct op as [t|l r|b r|b k v|b k|t f|r t h k|r k| |cap]; cbn [m_step mop_ok] in *.
  - (* New *) eexists. split; [reflexivity|]. destruct W as [W1 W2 W3 W4 W5 W6 W7 W8 W9 W10 W11 W12 W13 W14]. destruct W2 as [W2 W2'].
    constructor; cbn [things flags links roots weak coll target funcs cbs jobs]; auto.
    + constructor; assumption.
    + split.
      * intros x X. unfold all_roots in X. cbn [roots jobs cbs] in X. cbn [app] in X. destruct X as [<- | X]; [left; reflexivity | right; apply W2; exact X].
      * intros x u X U. unfold scan_kids, func_of in U. cbn [links funcs] in U. destruct X as [<- | X].
        -- rewrite Nat.eqb_refl in U. cbn [app] in U. destruct (find (fun x => fst x =? t) (funcs m)) as [[p q]|] eqn:Q; cbn [option_map] in U; [|destruct U]. exfalso. apply OK. apply find_some in Q. destruct Q as [Q1 Q2]. cbn in Q2. apply Nat.eqb_eq in Q2. subst p.
           apply W12. apply in_map_iff. exists (t, q). auto.
        -- right. apply (W2' x u X). destruct (Nat.eqb_spec x t) as [-> | N]; [contradiction|]. exact U.
    + intros w H. destruct (W4 w H). split; right; assumption.
    + intros x y H. right. apply (W8 x y H).
    + intros x H. right. apply W12. exact H.
    + intros x H. right. apply W13. exact H.
  - (* Link *) destruct OK as [O1 O2]. eexists. split; [reflexivity|]. destruct W as [W1 W2 W3 W4 W5 W6 W7 W8 W9 W10 W11 W12 W13 W14]. destruct W2 as [W2 W2'].
    constructor; cbn [things flags links roots weak coll target funcs cbs jobs]; auto. split.
    + intros x X. unfold all_roots in X. cbn [roots jobs cbs] in X. apply in_app_or in X. destruct X as [X | X]; [apply O1; exact X | apply W2; apply in_or_app; right; exact X].
    + intros x u X U. unfold scan_kids in U. cbn [links] in U. apply in_app_or in U. destruct U as [U | U]; [eapply O2; eassumption | apply (W2' x u X); apply in_or_app; right; exact U].
  - (* NewRef *) destruct OK as (O1 & O2 & O3). eexists. split; [reflexivity|]. destruct W as [W1 W2 W3 W4 W5 W6 W7 W8 W9 W10 W11 W12 W13 W14].
    constructor; cbn [things flags links roots weak coll target funcs cbs jobs]; auto.
    + intros w H. apply in_app_or in H. destruct H as [H | [<- | []]]; [apply W4; exact H | auto].
    + intros x y v H. apply in_or_app. left. eapply W5. exact H.
    + rewrite map_app. cbn [map fst]. apply nodup_snoc; assumption.
    + intros x y H. apply in_app_or in H. destruct H as [H | [H | []]]; [eapply W8; exact H | injection H as <- _; exact O1].
    + intros x y H. apply in_or_app. apply in_app_or in H. destruct H as [H | [H | []]]; [left; apply W9; exact H | right; injection H as <- <-; left; reflexivity].
    + intros x y H. apply in_or_app. apply in_app_or in H. destruct H as [H | [H | []]]; [left; apply W10; exact H | right; injection H as <- <-; left; reflexivity].
  - (* CollSet *) destruct OK as (O1 & O2 & O3). eexists. split; [reflexivity|]. destruct W as [W1 W2 W3 W4 W5 W6 W7 W8 W9 W10 W11 W12 W13 W14].
    assert (WK : forall w, In w (weak m) -> w = {| w_base := b; w_ref := k; w_kind := WColl |} \/ In w (filter (fun w => negb (is_wref b k w)) (weak m))).
    { intros w H. destruct (is_wref b k w) eqn:Q; [left; apply is_wref_true; exact Q | right; apply filter_In; rewrite Q; auto]. }
    unfold coll_set. constructor; unfold with_weak; cbn [things flags links roots weak coll target funcs cbs jobs]; auto.
    + intros w H. apply in_app_or in H. destruct H as [H | [<- | []]]; [apply filter_In in H; apply W4; apply H | auto].
    + intros x y z H. apply in_or_app.
      assert (IN : In (x, y, z) (coll m) -> In {| w_base := x; w_ref := y; w_kind := WColl |} (filter (fun w => negb (is_wref b k w)) (weak m)) \/ In {| w_base := x; w_ref := y; w_kind := WColl |} [{| w_base := b; w_ref := k; w_kind := WColl |}]).
      { intro K. destruct (WK _ (W5 _ _ _ K)) as [Q | Q]; [right; left; congruence | left; exact Q]. }
      destruct (has_entry (coll m) b k).
      * apply in_map_iff in H. destruct H as ([[p q] u] & E & K). cbn [fst snd] in E. destruct ((p =? b) && (q =? k)); [injection E as -> -> _; right; left; reflexivity | injection E as -> -> ->; apply IN; exact K].
      * apply in_app_or in H. destruct H as [H | [H | []]]; [apply IN; exact H | injection H as -> -> _; right; left; reflexivity].
    + destruct (has_entry (coll m) b k) eqn:Q.
      * rewrite map_map. erewrite map_ext; [exact W6|]. intros [[p q] u]. cbn [fst snd]. destruct ((p =? b) && (q =? k)) eqn:Z; [|reflexivity]. apply eqb2 in Z. destruct Z as [-> ->]. reflexivity.
      * rewrite map_app. cbn [map fst]. apply nodup_snoc; [exact W6|]. intro C. apply has_entry_spec in C. congruence.
    + intros x y H. apply in_or_app. left. apply filter_In. split; [apply W9; exact H|]. rewrite is_wref_false; [reflexivity | left; reflexivity].
    + intros x y H. apply in_app_or in H. destruct H as [H | [H | []]]; [apply W10; apply filter_In in H; apply H | discriminate].
  - (* CollDel *) eexists. split; [reflexivity|]. destruct W as [W1 W2 W3 W4 W5 W6 W7 W8 W9 W10 W11 W12 W13 W14].
    unfold coll_del. constructor; unfold with_weak; cbn [things flags links roots weak coll target funcs cbs jobs]; auto.
    + intros w H. apply filter_In in H. apply W4. apply H.
    + intros x y z H. unfold del_entry in H. apply filter_In in H. destruct H as [H K]. cbn [fst snd] in K. apply filter_In. split; [eapply W5; exact H|]. apply negb_true_iff. rewrite <- not_true_iff_false. intro C. apply is_wref_true in C.
      injection C as -> ->. rewrite eqb2_refl in K. discriminate.
    + apply nodup_map_filter. exact W6.
    + intros x y H. apply filter_In. split; [apply W9; exact H|]. rewrite is_wref_false; [reflexivity | left; reflexivity].
    + intros x y H. apply filter_In in H. apply W10. apply H.
  - (* NewReg *) destruct OK as (O1 & O2 & O3). eexists. split; [reflexivity|]. destruct W as [W1 W2 W3 W4 W5 W6 W7 W8 W9 W10 W11 W12 W13 W14]. destruct W2 as [W2 W2'].
    constructor; cbn [things flags links roots weak coll target funcs cbs jobs]; auto.
    + split; [exact W2|]. intros x u X U. unfold scan_kids, func_of in U. cbn [links funcs] in U. apply in_app_or in U. destruct U as [U | U]; [apply (W2' x u X); apply in_or_app; left; exact U|].
      assert (FA : forall l, find (fun x0 : nat * nat => fst x0 =? x) (l ++ [(t, f)]) = match find (fun x0 => fst x0 =? x) l with Some y => Some y | None => if t =? x then Some (t, f) else None end).
      { clear. induction l as [|[p q] l IH]; cbn [app find fst]; [reflexivity|]. destruct (p =? x); [reflexivity | exact IH]. }
      rewrite FA in U. destruct (find (fun x0 => fst x0 =? x) (funcs m)) as [y|] eqn:Q; [apply (W2' x u X); apply in_or_app; right; unfold func_of; rewrite Q; exact U|].
      destruct (t =? x); cbn [option_map snd] in U; [destruct U as [<- | []]; exact O2 | destruct U].
    + rewrite map_app. cbn [map fst]. apply nodup_snoc; assumption.
    + intros x H. rewrite map_app in H. apply in_app_or in H. destruct H as [H | [<- | []]]; [apply W12; exact H | exact O1].
    + intros c H. rewrite map_app. apply in_or_app. left. apply W14. exact H.
  - (* Register *) destruct OK as (O1 & O2 & O3 & O4 & O5). destruct (same_held t h); [exists m; auto|]. eexists. split; [reflexivity|]. apply wf_with_cbs; [exact W|]. intros c C. apply register_in in C. destruct C as [C | ->]; [left; exact C|]. right. cbn [f_target f_reg].
    split; [exact O3|]. split; [exact O2|]. intros x X. unfold cb_roots in X. cbn [f_reg f_held f_token f_target] in X. destruct X as [<- | X]; [exact O1|]. apply in_app_or in X. destruct X as [X | X]; [apply O4; exact X|]. destruct k as [k|]; [|destruct X].
    destruct (k =? t); [destruct X|]. destruct X as [<- | []]. apply O5. reflexivity.
  - (* Unregister *) eexists. split; [reflexivity|]. apply wf_with_cbs; [exact W|]. intros c C. left. eapply remove_in. exact C.
  - (* RunJob *) eexists. split; [reflexivity|]. destruct W as [W1 W2 W3 W4 W5 W6 W7 W8 W9 W10 W11 W12 W13 W14]. destruct W2 as [W2 W2'].
    constructor; cbn [things flags links roots weak coll target funcs cbs jobs]; auto. split; [|exact W2']. intros x X. apply W2. unfold all_roots in *. cbn [roots jobs cbs] in X. apply in_app_or in X. apply in_or_app.
    destruct X as [X | X]; [left; exact X|]. right. apply in_app_or in X. apply in_or_app. destruct X as [X | X]; [|right; exact X]. left. destruct (jobs m) as [|j js]; [exact X|]. cbn [tl] in X. cbn [flat_map]. apply in_or_app. right. exact X.
  - destruct (gc_spec cap m W) as (m' & E & _ & W'). exists m'. auto.
Qed.

Lemma wf_empty : WF empty_mem.
Proof.
  constructor; unfold empty_mem, closed, no_marks, scan_kids, func_of, all_roots; cbn; try (intros; contradiction); try constructor; try (split; reflexivity); try (intros; contradiction).
Qed.
Lemma hist_wf : forall m ops m', WF m -> hist m ops m' -> WF m'.
Proof. intros m ops m' W H. induction H as [|ops m1 op m2 H IH OK E]; [exact W|]. destruct (step_wf m1 op (IH) OK) as (m3 & E3 & W3). congruence. Qed.
Lemma hist_trans : forall m ops m' ops' m'', hist m ops m' -> hist m' ops' m'' -> hist m (ops ++ ops') m''.
Proof. intros m ops m' ops' m'' H H'. induction H' as [|ops' m1 op m2 H' IH OK E]; [rewrite app_nil_r; exact H|]. rewrite app_assoc. eapply h_snoc; eassumption. Qed.

(** *** finalization *)
Definition tokens_once (cs : list fcb) : Prop := forall r k, length (filter (same_token r k) cs) <= 1.
Lemma remove_drop : forall r k cs, length (filter (same_token r k) cs) <= 1 -> remove_cb r k cs = drop_token r k cs.
Proof.
  intros r k cs. unfold drop_token. induction cs as [|c cs IH]; intro H; [reflexivity|]. cbn [remove_cb filter] in *. destruct (same_token r k c) eqn:Q; cbn [negb].
  - cbn [length] in H. assert (Z : filter (same_token r k) cs = []) by (destruct (filter (same_token r k) cs); [reflexivity | cbn in H; lia]). clear - Z. induction cs as [|d cs IH]; [reflexivity|]. cbn [filter] in *. destruct (same_token r k d); [discriminate|]. cbn [negb]. f_equal. apply IH. exact Z.
  - f_equal. apply IH. exact H.
Qed.
Lemma filter_filter_len : forall (A : Type) (p q : A -> bool) l, length (filter p (filter q l)) <= length (filter p l).
Proof. intros A p q l. induction l as [|a l IH]; [cbn; lia|]. cbn [filter]. destruct (q a); cbn [filter]; destruct (p a); cbn [length]; lia. Qed.
Lemma register_fresh : forall cs n, (forall k, f_token n = Some k -> forall c, In c cs -> same_token (f_reg n) k c = false) -> register cs n = cs ++ [n].
Proof.
  intros cs n H. unfold register. destruct (f_token n) as [k|] eqn:E; [|reflexivity]. assert (X : existsb (same_token (f_reg n) k) cs = false).
  { rewrite <- not_true_iff_false. intro C. apply existsb_exists in C. destruct C as (c & C1 & C2). rewrite (H k eq_refl c C1) in C2. discriminate. }
  rewrite X. reflexivity.
Qed.
Lemma filter_none : forall (A : Type) (p : A -> bool) l, (forall x, In x l -> p x = false) -> filter p l = [].
Proof. intros A p l H. induction l as [|a l IH]; [reflexivity|]. cbn. rewrite (H a (or_introl eq_refl)). apply IH. intros x Hx. apply H. right. exact Hx. Qed.

Lemma step_reg : forall m op m', WF m -> mop_ok m op -> fresh_token m op -> tokens_once (cbs m) -> m_step m op = Some m' ->
  exists due, reg_step m (cbs m) op (cbs m') due /\ tokens_once (cbs m') /\ jobs m' = (if match op with RunJob => true | _ => false end then tl (jobs m) else jobs m) ++ due.
Proof.
  intros m op m' W OK FR TO E. destruct op as [t|l r|b r|b k v|b k|t f|r t h k|r k| |cap];
    try (injection E as <-; exists []; split; [apply rs_other; exact Logic.I|]; split; [exact TO | cbn; rewrite app_nil_r; reflexivity]).
  - cbn [m_step] in E. destruct (same_held t h) eqn:SH; injection E as <-.
    + exists []. split; [apply rs_refused; exact SH|]. split; [exact TO | rewrite app_nil_r; reflexivity].
    + exists []. unfold with_cbs. cbn [cbs jobs]. set (n := {| f_reg := r; f_target := t; f_held := h; f_token := k |}).
      assert (RF : register (cbs m) n = cbs m ++ [n]) by (apply register_fresh; cbn [f_token f_reg n]; intros x -> c C; apply (FR c C)). rewrite RF.
      split; [apply rs_register; exact SH|]. split; [|rewrite app_nil_r; reflexivity]. intros r' k'. rewrite filter_app, app_length. cbn [filter]. destruct (same_token r' k' n) eqn:Q; cbn [length]; [|specialize (TO r' k'); lia].
      unfold same_token in Q. cbn [f_reg f_token n] in Q. apply andb_prop in Q. destruct Q as [Q1 Q2]. apply Nat.eqb_eq in Q1. subst r'. destruct k as [k|]; [|discriminate]. apply Nat.eqb_eq in Q2. subst k'.
      rewrite filter_none; [cbn; lia|]. intros c C. apply (FR c C).
  - injection E as <-. exists []. unfold with_cbs. cbn [cbs jobs]. rewrite remove_drop by apply TO. split; [apply rs_unregister|]. split; [|rewrite app_nil_r; reflexivity].
    intros r' k'. unfold drop_token. pose proof (filter_filter_len _ (same_token r' k') (fun c => negb (same_token r k c)) (cbs m)). specialize (TO r' k'). lia.
  - cbn [m_step] in E. destruct (gc_spec cap m W) as (m2 & E2 & C2 & _). rewrite E2 in E. injection E as <-. destruct (c_settle _ _ C2) as (due & S1 & S2). exists due. split; [apply rs_gc; exact S1|]. split; [|exact S2].
    assert (SUB : exists q, cbs m2 = filter q (cbs m)).
    { clear - E2. unfold gc_run in E2. destruct (mark_phase _ _ _ _ _) as [s|]; [|discriminate]. destruct (solve_weak _ _ _ _) as [[ws co] tg]. destruct (solve_final (func_of m) (mk s) (cbs m)) as [cs js] eqn:SF. destruct (sweep _ _) as [ts s']. injection E2 as <-. cbn [cbs].
      exists (fun c => mk s (f_target c)). revert cs js SF. induction (cbs m) as [|c l IH]; intros cs js SF; cbn [solve_final] in SF; [injection SF as <- _; reflexivity|]. destruct (solve_final (func_of m) (mk s) l) as [cs' js']. cbn [filter].
      destruct (mk s (f_target c)); injection SF as <- _; [f_equal|]; eapply IH; reflexivity. }
    destruct SUB as [q ->]. intros r k. pose proof (filter_filter_len _ (same_token r k) q (cbs m)). specialize (TO r k). lia.
Qed.
Lemma reg_step_fun : forall m p op a b a' b', reg_step m p op a b -> reg_step m p op a' b' -> a = a' /\ b = b'.
Proof.
  intros m p op a b a' b' H H'. inversion H; subst; inversion H'; subst; try contradiction; try congruence; auto. eapply settle_fun; eassumption.
Qed.
Lemma reg_hist_hist : forall ops m p d, reg_hist ops m p d -> hist empty_mem ops m.
Proof. intros ops m p d H. induction H as [|ops m1 p d op m2 p' due H IH OK FR E RS]; [constructor | eapply h_snoc; eassumption]. Qed.
Lemma reg_hist_spec : forall ops m p d, reg_hist ops m p d -> cbs m = p /\ (exists ran, d = ran ++ jobs m) /\ tokens_once p.
Proof.
  intros ops m p d H. induction H as [|ops m1 p d op m2 p' due H IH OK FR E RS]; [split; [reflexivity|]; split; [exists []; reflexivity | intros r k; cbn; lia]|].
  destruct IH as (<- & (ran & ->) & TO). pose proof (hist_wf _ _ _ wf_empty (reg_hist_hist _ _ _ _ H)) as W.
  destruct (step_reg m1 op m2 W OK FR TO E) as (due' & RS' & TO' & J). destruct (reg_step_fun _ _ _ _ _ _ _ RS RS') as [-> ->]. split; [reflexivity|]. split; [|exact TO'].
  rewrite J. destruct op; try (exists ran; rewrite app_assoc; reflexivity). destruct (jobs m1) as [|j js]; [exists ran; cbn; rewrite app_nil_r; reflexivity | exists (ran ++ [j]); cbn [tl]; rewrite <- !app_assoc; reflexivity].
Qed.
(** histories that do not reuse tokens have such a description *)
Lemma reg_hist_exists : forall ops m, hist empty_mem ops m -> (forall ops1 m1 op, hist empty_mem ops1 m1 -> (exists rest, ops = ops1 ++ op :: rest) -> fresh_token m1 op) -> exists p d, reg_hist ops m p d.
Proof.
  intros ops m H. induction H as [|ops m1 op m2 H IH OK E]; intro FR; [exists [], []; constructor|].
  destruct IH as (p & d & RH).
  { intros ops1 m' o H1 (rest & ->). apply (FR ops1 m' o H1). exists (rest ++ [op]). rewrite <- app_assoc. reflexivity. }
  destruct (reg_hist_spec _ _ _ _ RH) as (<- & _ & TO). pose proof (hist_wf _ _ _ wf_empty H) as W. assert (F1 : fresh_token m1 op) by (apply (FR ops m1 op H); exists []; reflexivity).
  destruct (step_reg m1 op m2 W OK F1 TO E) as (due & RS & _ & _). exists (cbs m2), (d ++ due). eapply rh_snoc; eassumption.
Qed.
