(** Proofs about the merge sort model. *)
From Coq Require Import List Arith Bool Lia Permutation Sorted.
Import ListNotations.
From Verif Require Import SortModel SortSpec.

Section Functional.
  Variable A W : Type.
  Variable func : W -> A -> A -> option cmpres * W.

  (** List-level counterpart of the merge loop. *)
  Fixpoint fmerge (fuel : nat) (w : W) (L R : list A) : option (list A) * W :=
    match L, R with
    | [], _ => (Some R, w)
    | _, [] => (Some L, w)
    | x :: L', y :: R' =>
      match fuel with
      | O => (None, w)
      | S f =>
        match func w x y with
        | (None, w') => (None, w')
        | (Some cr, w') =>
          if negb (is_greater cr)
          then match fmerge f w' L' R with
               | (Some l, w2) => (Some (x :: l), w2) | r => r end
          else match fmerge f w' L R' with
               | (Some l, w2) => (Some (y :: l), w2) | r => r end
        end
      end
    end.

  Definition seg (base : list A) (from len : nat) := firstn len (skipn from base).

  Lemma seg_cons base l n x :
    nth_error base l = Some x -> seg base l (S n) = x :: seg base (S l) n.
  Proof.
    unfold seg. revert l. induction base as [|b base IH]; intros l H.
    - destruct l; discriminate.
    - destruct l as [|l]; simpl in *.
      + congruence.
      + apply IH in H. destruct base; [destruct l; discriminate|].
        exact H.
  Qed.

  Lemma seg_length base l n : l + n <= length base -> length (seg base l n) = n.
  Proof.
    intros H. unfold seg. rewrite firstn_length, skipn_length. lia.
  Qed.

  Lemma merge_loop_spec fuel w base m e l r tmp :
    l <= S m -> r <= S e -> S m <= length base -> S e <= length base ->
    S m - l + (S e - r) <= fuel ->
    match fmerge fuel w (seg base l (S m - l)) (seg base r (S e - r)) with
    | (None, w') => merge_loop A W func fuel w base m e l r tmp = MThrow w'
    | (Some res, w') =>
      exists l' r' tmp',
        merge_loop A W func fuel w base m e l r tmp = MDone l' r' tmp' w' /\
        l' <= S m /\ r' <= S e /\
        tmp' ++ seg base l' (S m - l') ++ seg base r' (S e - r') = tmp ++ res
    end.
  Proof.
    revert w l r tmp. induction fuel as [|fuel IH]; intros w l r tmp Hl Hr Hm He Hf.
    - assert (S m - l = 0) by lia. assert (S e - r = 0) by lia.
      rewrite H, H0. unfold seg at 1 2. cbn [firstn fmerge merge_loop].
      destruct (Nat.leb_spec l m); [lia|]. cbn [andb].
      exists l, r, tmp. rewrite H, H0. unfold seg; cbn [firstn]. auto.
    - destruct (Nat.leb_spec l m) as [Hlm|Hlm].
      + destruct (Nat.leb_spec r e) as [Hre|Hre].
        * destruct (nth_error base l) as [x|] eqn:Ex;
            [|apply nth_error_None in Ex; lia].
          destruct (nth_error base r) as [y|] eqn:Ey;
            [|apply nth_error_None in Ey; lia].
          replace (S m - l) with (S (m - l)) by lia.
          replace (S e - r) with (S (e - r)) by lia.
          rewrite (seg_cons _ _ _ _ Ex), (seg_cons _ _ _ _ Ey).
          cbn [fmerge merge_loop].
          rewrite (proj2 (Nat.leb_le l m) Hlm), (proj2 (Nat.leb_le r e) Hre).
          cbn [andb]. rewrite Ex, Ey.
          destruct (func w x y) as [[cr|] w1] eqn:Ef; [|reflexivity].
          destruct (negb (is_greater cr)) eqn:Eg.
          -- specialize (IH w1 (S l) r (tmp ++ [x])).
             replace (S m - S l) with (m - l) in IH by lia.
             replace (S e - r) with (S (e - r)) in IH by lia.
             rewrite (seg_cons _ _ _ _ Ey) in IH.
             specialize (IH ltac:(lia) ltac:(lia) Hm He ltac:(lia)).
             destruct (fmerge fuel w1 (seg base (S l) (m - l)) (y :: seg base (S r) (e - r)))
               as [[res|] w2].
             ++ destruct IH as (l' & r' & t' & E1 & E2 & E3 & E4).
                exists l', r', t'. repeat split; auto.
                rewrite E4, <- app_assoc. reflexivity.
             ++ exact IH.
          -- specialize (IH w1 l (S r) (tmp ++ [y])).
             replace (S e - S r) with (e - r) in IH by lia.
             replace (S m - l) with (S (m - l)) in IH by lia.
             rewrite (seg_cons _ _ _ _ Ex) in IH.
             specialize (IH ltac:(lia) ltac:(lia) Hm He ltac:(lia)).
             destruct (fmerge fuel w1 (x :: seg base (S l) (m - l)) (seg base (S r) (e - r)))
               as [[res|] w2].
             ++ destruct IH as (l' & r' & t' & E1 & E2 & E3 & E4).
                exists l', r', t'. repeat split; auto.
                rewrite E4, <- app_assoc. reflexivity.
             ++ exact IH.
        * assert (Hz : S e - r = 0) by lia. rewrite Hz.
          assert (Hs : seg base r 0 = []) by reflexivity. rewrite Hs.
          replace (S m - l) with (S (m - l)) by lia.
          destruct (nth_error base l) as [x|] eqn:Ex;
            [|apply nth_error_None in Ex; lia].
          rewrite (seg_cons _ _ _ _ Ex). cbn [fmerge merge_loop].
          rewrite (proj2 (Nat.leb_gt r e) Hre), andb_false_r.
          exists l, r, tmp. rewrite Hz, Hs.
          replace (S m - l) with (S (m - l)) by lia.
          rewrite (seg_cons _ _ _ _ Ex), app_nil_r. auto.
      + assert (Hz : S m - l = 0) by lia. rewrite Hz.
        assert (Hs : seg base l 0 = []) by reflexivity. rewrite Hs.
        cbn [fmerge merge_loop].
        rewrite (proj2 (Nat.leb_gt l m) Hlm). cbn [andb].
        exists l, r, tmp. rewrite Hz, Hs. auto.
  Qed.

  Lemma fmerge_length fuel w L R res w' :
    fmerge fuel w L R = (Some res, w') -> length res = length L + length R.
  Proof.
    revert w L R res w'. induction fuel as [|fuel IH]; intros w L R res w' H;
      destruct L as [|x L]; destruct R as [|y R]; cbn [fmerge] in H;
        try discriminate; try (injection H as <- <-; simpl; lia).
    destruct (func w x y) as [[cr|] w1]; [|discriminate].
    destruct (negb (is_greater cr)).
    - destruct (fmerge fuel w1 L (y :: R)) as [[l|] w2] eqn:E; [|discriminate].
      injection H as <- <-. apply IH in E. simpl in *. lia.
    - destruct (fmerge fuel w1 (x :: L) R) as [[l|] w2] eqn:E; [|discriminate].
      injection H as <- <-. apply IH in E. simpl in *. lia.
  Qed.

  Lemma seg_app pre L post :
    seg (pre ++ L ++ post) (length pre) (length L) = L.
  Proof.
    unfold seg. rewrite skipn_app, skipn_all, Nat.sub_diag. simpl.
    rewrite firstn_app, firstn_all, Nat.sub_diag. simpl. apply app_nil_r.
  Qed.

  Lemma merge_spec w pre L R post :
    L <> [] -> R <> [] ->
    let min := length pre in
    let mid := length pre + length L - 1 in
    let max := length pre + length L + length R - 1 in
    let base := pre ++ L ++ R ++ post in
    merge A W func w base min mid max =
    match fmerge (length L + length R) w L R with
    | (None, w') => (SThrow base, w')
    | (Some res, w') => (SOk (pre ++ res ++ post), w')
    end.
  Proof.
    intros HL HR min mid max base.
    assert (1 <= length L) by (destruct L; [congruence|simpl; lia]).
    assert (1 <= length R) by (destruct R; [congruence|simpl; lia]).
    assert (Hlen : length base = length pre + length L + length R + length post)
      by (unfold base; rewrite !app_length; lia).
    unfold merge.
    assert (Hfuel : S max - min = length L + length R) by (unfold max, min; lia).
    rewrite Hfuel.
    pose proof (merge_loop_spec (length L + length R) w base mid max min (S mid) []
                  ltac:(unfold mid, min; lia) ltac:(unfold mid, max; lia)
                  ltac:(unfold mid; lia) ltac:(unfold max; lia)
                  ltac:(unfold mid, max, min; lia)) as Hm.
    replace (S mid - min) with (length L) in Hm by (unfold mid, min; lia).
    replace (S max - S mid) with (length R) in Hm by (unfold mid, max; lia).
    assert (E1 : seg base min (length L) = L) by apply seg_app.
    assert (E2 : seg base (S mid) (length R) = R).
    { unfold base. rewrite app_assoc.
      replace (S mid) with (length (pre ++ L)) by (rewrite app_length; unfold mid; lia).
      apply seg_app. }
    rewrite E1, E2 in Hm.
    destruct (fmerge (length L + length R) w L R) as [[res|] w'] eqn:Ef.
    - destruct Hm as (l' & r' & t' & Em & Hl' & Hr' & Hcat). rewrite Em.
      assert (Ht1 : (if l' <=? mid then copy_range A base l' mid else Some [])
                    = Some (seg base l' (S mid - l'))).
      { destruct (Nat.leb_spec l' mid).
        - unfold copy_range. destruct (Nat.ltb_spec mid (length base)).
          + reflexivity.
          + unfold mid in *. lia.
        - replace (S mid - l') with 0 by lia. reflexivity. }
      assert (Ht2 : (if r' <=? max then copy_range A base r' max else Some [])
                    = Some (seg base r' (S max - r'))).
      { destruct (Nat.leb_spec r' max).
        - unfold copy_range. destruct (Nat.ltb_spec max (length base)).
          + reflexivity.
          + unfold max in *. lia.
        - replace (S max - r') with 0 by lia. reflexivity. }
      rewrite Ht1, Ht2. cbn zeta. rewrite Hcat. cbn [app].
      assert (Hres := fmerge_length _ _ _ _ _ _ Ef).
      rewrite Hres, Nat.eqb_refl. unfold write_range.
      destruct (Nat.leb_spec (min + length res) (length base)) as [Hle|Hle];
        [|unfold min in *; lia].
      unfold base, min. rewrite firstn_app, firstn_all, Nat.sub_diag.
      cbn [firstn]. rewrite app_nil_r.
      replace (skipn (length pre + length res) (pre ++ L ++ R ++ post)) with post.
      + reflexivity.
      + rewrite Hres. rewrite skipn_app.
        rewrite skipn_all2 by lia. simpl.
        replace (length pre + (length L + length R) - length pre)
          with (length (L ++ R)) by (rewrite app_length; lia).
        rewrite app_assoc, skipn_app, skipn_all, Nat.sub_diag. reflexivity.
    - rewrite Hm. reflexivity.
  Qed.

  (** List-level sort: [inl] result, or [inr] the array content at a throw. *)
  Fixpoint fsort (fuel : nat) (w : W) (L : list A) : option (list A + list A) * W :=
    if length L <=? 1 then (Some (inl L), w)
    else match fuel with
         | O => (None, w)
         | S f =>
           let k := S ((length L - 1) / 2) in
           match fsort f w (firstn k L) with
           | (Some (inl L1), w1) =>
             match fsort f w1 (skipn k L) with
             | (Some (inl L2), w2) =>
               match fmerge (length L1 + length L2) w2 L1 L2 with
               | (Some res, w3) => (Some (inl res), w3)
               | (None, w3) => (Some (inr (L1 ++ L2)), w3)
               end
             | (Some (inr L2), w2) => (Some (inr (L1 ++ L2)), w2)
             | (None, w2) => (None, w2)
             end
           | (Some (inr L1), w1) => (Some (inr (L1 ++ skipn k L)), w1)
           | (None, w1) => (None, w1)
           end
         end.

  Lemma half_bound n : 2 <= n ->
    1 <= S ((n - 1) / 2) /\ S ((n - 1) / 2) < n.
  Proof.
    intros H. split; [lia|].
    assert ((n - 1) / 2 < n - 1) by (apply Nat.div_lt; lia). lia.
  Qed.

  Lemma fmerge_perm fuel w L R res w' :
    fmerge fuel w L R = (Some res, w') -> Permutation (L ++ R) res.
  Proof.
    revert w L R res w'. induction fuel as [|fuel IH]; intros w L R res w' H;
      destruct L as [|x L]; destruct R as [|y R]; cbn [fmerge] in H;
        try discriminate;
        try (injection H as <- <-; rewrite ?app_nil_r; simpl; auto; fail).
    destruct (func w x y) as [[cr|] w1]; [|discriminate].
    destruct (negb (is_greater cr)).
    - destruct (fmerge fuel w1 L (y :: R)) as [[l|] w2] eqn:E; [|discriminate].
      injection H as <- <-. apply IH in E. simpl. constructor. exact E.
    - destruct (fmerge fuel w1 (x :: L) R) as [[l|] w2] eqn:E; [|discriminate].
      injection H as <- <-. apply IH in E.
      transitivity (y :: (x :: L) ++ R).
      + symmetry. apply (Permutation_middle (x :: L) R y).
      + constructor. exact E.
  Qed.

  Lemma fsort_perm fuel w L :
    length L <= S fuel ->
    match fsort fuel w L with
    | (Some (inl res), _) => Permutation L res
    | (Some (inr res), _) => Permutation L res
    | (None, _) => False
    end.
  Proof.
    revert w L. induction fuel as [|fuel IH]; intros w L HL; cbn [fsort].
    - destruct (Nat.leb_spec (length L) 1); [auto|lia].
    - destruct (Nat.leb_spec (length L) 1) as [H1|H1]; [auto|].
      destruct (half_bound (length L) ltac:(lia)) as [Hk1 Hk2].
      cbv zeta. set (k := S ((length L - 1) / 2)) in *.
      pose proof (IH w (firstn k L)) as IH1.
      rewrite firstn_length in IH1. specialize (IH1 ltac:(lia)).
      assert (Hsplit : L = firstn k L ++ skipn k L)
        by (symmetry; apply firstn_skipn).
      destruct (fsort fuel w (firstn k L)) as [[[L1|L1]|] w1]; [| |exact IH1].
      + pose proof (IH w1 (skipn k L)) as IH2.
        rewrite skipn_length in IH2. specialize (IH2 ltac:(lia)).
        destruct (fsort fuel w1 (skipn k L)) as [[[L2|L2]|] w2]; [| |exact IH2].
        * destruct (fmerge (length L1 + length L2) w2 L1 L2) as [[res|] w3] eqn:E.
          -- apply fmerge_perm in E. rewrite Hsplit, <- E.
             apply Permutation_app; assumption.
          -- rewrite Hsplit. apply Permutation_app; assumption.
        * rewrite Hsplit. apply Permutation_app; assumption.
      + rewrite Hsplit at 1. apply Permutation_app; auto.
  Qed.

  Lemma sort_spec fuel w pre L post :
    1 <= length L -> length L <= S fuel ->
    sort A W func fuel w (pre ++ L ++ post) (length pre) (length pre + length L - 1) =
    match fsort fuel w L with
    | (Some (inl res), w') => (SOk (pre ++ res ++ post), w')
    | (Some (inr res), w') => (SThrow (pre ++ res ++ post), w')
    | (None, w') => (SFuel, w')
    end.
  Proof.
    revert w pre L post. induction fuel as [|fuel IH]; intros w pre L post H1 H2;
      cbn [sort fsort].
    - destruct (Nat.leb_spec (length pre + length L - 1) (length pre)); [|lia].
      destruct (Nat.leb_spec (length L) 1); [reflexivity|lia].
    - destruct (Nat.leb_spec (length L) 1) as [Hs|Hs].
      { destruct (Nat.leb_spec (length pre + length L - 1) (length pre)); [reflexivity|lia]. }
      destruct (Nat.leb_spec (length pre + length L - 1) (length pre)); [lia|].
      destruct (half_bound (length L) ltac:(lia)) as [Hk1 Hk2].
      cbv zeta. set (k := S ((length L - 1) / 2)) in *.
      assert (Hmid : (length pre + (length pre + length L - 1)) / 2 = length pre + k - 1).
      { replace (length pre + (length pre + length L - 1))
          with ((length L - 1) + length pre * 2) by lia.
        rewrite Nat.div_add by lia. unfold k. lia. }
      rewrite Hmid.
      assert (Hk : length (firstn k L) = k) by (rewrite firstn_length; lia).
      assert (Hk' : length (skipn k L) = length L - k) by apply skipn_length.
      pose proof (IH w pre (firstn k L) (skipn k L ++ post)) as IH1.
      rewrite Hk in IH1. specialize (IH1 ltac:(lia) ltac:(lia)).
      rewrite app_assoc, app_assoc, <- (app_assoc pre), firstn_skipn, <- app_assoc in IH1.
      rewrite IH1.
      pose proof (fsort_perm fuel w (firstn k L)) as P1.
      rewrite Hk in P1. specialize (P1 ltac:(lia)).
      destruct (fsort fuel w (firstn k L)) as [[[L1|L1]|] w1];
        [| rewrite <- app_assoc; reflexivity | reflexivity].
      assert (HL1 : length L1 = k)
        by (rewrite <- Hk; symmetry; apply Permutation_length, P1).
      pose proof (IH w1 (pre ++ L1) (skipn k L) post) as IH2.
      rewrite app_length, HL1, Hk' in IH2. specialize (IH2 ltac:(lia) ltac:(lia)).
      replace (S (length pre + k - 1)) with (length pre + k) by lia.
      replace (length pre + k + (length L - k) - 1) with (length pre + length L - 1) in IH2 by lia.
      rewrite <- !app_assoc in IH2. rewrite IH2.
      pose proof (fsort_perm fuel w1 (skipn k L)) as P2.
      rewrite Hk' in P2. specialize (P2 ltac:(lia)).
      destruct (fsort fuel w1 (skipn k L)) as [[[L2|L2]|] w2];
        [| rewrite <- !app_assoc; reflexivity | reflexivity].
      assert (HL2 : length L2 = length L - k)
        by (rewrite <- Hk'; symmetry; apply Permutation_length, P2).
      pose proof (merge_spec w2 pre L1 L2 post) as HM.
      cbv zeta in HM.
      rewrite HL1, HL2 in HM.
      replace (length pre + k + (length L - k) - 1) with (length pre + length L - 1) in HM by lia.
      rewrite <- !app_assoc.
      rewrite HM by (intro E; subst; simpl in *; lia).
      rewrite ?HL1, ?HL2.
      destruct (fmerge (k + (length L - k)) w2 L1 L2) as [[res|] w3];
        rewrite <- ?app_assoc; reflexivity.
  Qed.

  Theorem rjs_sort_fsort w base :
    2 <= length base ->
    rjs_sort A W func w base =
    match fsort (length base) w base with
    | (Some (inl res), w') => (SOk res, w')
    | (Some (inr res), w') => (SThrow res, w')
    | (None, w') => (SFuel, w')
    end.
  Proof.
    intros H. unfold rjs_sort.
    destruct (Nat.ltb_spec (length base) 2); [lia|].
    pose proof (sort_spec (length base) w [] base [] ltac:(lia) ltac:(lia)) as E.
    cbn [app length Nat.add] in E. rewrite app_nil_r in E. rewrite E.
    destruct (fsort (length base) w base) as [[[r|r]|] w'];
      rewrite ?app_nil_r; reflexivity.
  Qed.

  (** Any comparator: never out of bounds, never out of fuel, always a
      permutation. *)
  Theorem rjs_sort_permutation w base :
    (exists res w', rjs_sort A W func w base = (SOk res, w') /\ Permutation base res) \/
    (exists res w', rjs_sort A W func w base = (SThrow res, w') /\ Permutation base res).
  Proof.
    destruct (Nat.ltb_spec (length base) 2) as [H|H].
    - left. exists base, w. unfold rjs_sort.
      rewrite (proj2 (Nat.ltb_lt _ _) H). auto.
    - rewrite (rjs_sort_fsort w base H).
      pose proof (fsort_perm (length base) w base ltac:(lia)) as P.
      destruct (fsort (length base) w base) as [[[r|r]|] w'].
      + left; eauto.
      + right; eauto.
      + contradiction.
  Qed.
End Functional.

Section Ordered.
  Variable A W : Type.
  Variable func : W -> A -> A -> option cmpres * W.
  Variable c : A -> A -> cmpres.
  Variable le : A -> A -> Prop.
  Hypothesis Hpure : pure_cmp func c.
  Hypothesis Hwo : weak_order c le.

  Lemma not_greater_le x y : is_greater (c x y) = false -> le x y.
  Proof.
    intros H. apply (wo_le _ _ Hwo). destruct (c x y); simpl in H; congruence.
  Qed.

  Lemma greater_le x y : is_greater (c x y) = true -> le y x /\ ~ le x y.
  Proof.
    intros H.
    assert (N : ~ le x y).
    { intro K. apply (wo_le _ _ Hwo) in K. destruct (c x y); simpl in H; congruence. }
    split; [|exact N].
    destruct (wo_total _ _ Hwo x y); [contradiction|assumption].
  Qed.

  Lemma fmerge_pure fuel w L R :
    length L + length R <= fuel ->
    exists res, fmerge A W func fuel w L R = (Some res, w).
  Proof.
    revert L R. induction fuel as [|fuel IH]; intros L R H;
      destruct L as [|x L]; destruct R as [|y R]; cbn [fmerge length] in *;
        try (eexists; reflexivity); try lia.
    rewrite Hpure. destruct (negb (is_greater (c x y))).
    - destruct (IH L (y :: R)) as [l E]; [simpl; lia|]. rewrite E. eauto.
    - destruct (IH (x :: L) R) as [l E]; [simpl; lia|]. rewrite E. eauto.
  Qed.

  Lemma fmerge_sorted fuel w L R res w' :
    fmerge A W func fuel w L R = (Some res, w') ->
    StronglySorted le L -> StronglySorted le R -> StronglySorted le res.
  Proof.
    revert w L R res w'. induction fuel as [|fuel IH]; intros w L R res w' H SL SR;
      destruct L as [|x L]; destruct R as [|y R]; cbn [fmerge] in H;
        try discriminate; try (injection H as <- <-; assumption).
    rewrite Hpure in H.
    destruct (is_greater (c x y)) eqn:Eg; cbn [negb] in H.
    - destruct (fmerge A W func fuel w (x :: L) R) as [[l|] w2] eqn:E; [|discriminate].
      injection H as <- <-.
      pose proof (IH _ _ _ _ _ E SL) as S1.
      inversion SR as [|? ? SR' FR]; subst.
      specialize (S1 SR'). constructor; [exact S1|].
      apply fmerge_perm in E.
      rewrite Forall_forall. intros z Hz.
      apply (Permutation_in _ (Permutation_sym E)) in Hz.
      destruct (greater_le _ _ Eg) as [Hyx _].
      apply in_app_or in Hz. destruct Hz as [[->|Hz]|Hz].
      + exact Hyx.
      + inversion SL as [|? ? _ FL]; subst.
        rewrite Forall_forall in FL. eapply (wo_trans _ _ Hwo); eauto.
      + rewrite Forall_forall in FR. auto.
    - destruct (fmerge A W func fuel w L (y :: R)) as [[l|] w2] eqn:E; [|discriminate].
      injection H as <- <-.
      inversion SL as [|? ? SL' FL]; subst.
      pose proof (IH _ _ _ _ _ E SL' SR) as S1. constructor; [exact S1|].
      apply fmerge_perm in E.
      rewrite Forall_forall. intros z Hz.
      apply (Permutation_in _ (Permutation_sym E)) in Hz.
      pose proof (not_greater_le _ _ Eg) as Hxy.
      apply in_app_or in Hz. destruct Hz as [Hz|[->|Hz]].
      + rewrite Forall_forall in FL. auto.
      + exact Hxy.
      + inversion SR as [|? ? _ FR]; subst.
        rewrite Forall_forall in FR. eapply (wo_trans _ _ Hwo); eauto.
  Qed.

  Lemma filter_none (p : A -> bool) l :
    (forall x, In x l -> p x = false) -> filter p l = [].
  Proof.
    induction l as [|a l IH]; intros H; [reflexivity|].
    cbn [filter]. rewrite (H a (or_introl eq_refl)). apply IH.
    intros x Hx. apply H. right. exact Hx.
  Qed.

  (** When an item of the right run is taken first, no item of the class of
      that item remains in the left run. *)
  Lemma fmerge_stable fuel w L R res w' :
    fmerge A W func fuel w L R = (Some res, w') ->
    StronglySorted le L -> StronglySorted le R ->
    stable_for le (L ++ R) res.
  Proof.
    revert w L R res w'. induction fuel as [|fuel IH]; intros w L R res w' H SL SR p Hp;
      destruct L as [|x L]; destruct R as [|y R]; cbn [fmerge] in H;
        try discriminate; try (injection H as <- <-; rewrite ?app_nil_r; reflexivity).
    rewrite Hpure in H.
    destruct (is_greater (c x y)) eqn:Eg; cbn [negb] in H.
    - destruct (fmerge A W func fuel w (x :: L) R) as [[l|] w2] eqn:E; [|discriminate].
      injection H as <- <-.
      assert (SR' : StronglySorted le R) by (inversion SR; assumption).
      pose proof (IH _ _ _ _ _ E SL SR' p Hp) as S1.
      cbn [filter]. rewrite S1.
      destruct (p y) eqn:Py.
      + (* no element of x :: L is in the class *)
        assert (Hno : filter p (x :: L) = []).
        { apply filter_none. intros z Hz.
          destruct (p z) eqn:Pz; [|reflexivity]. exfalso.
          destruct (greater_le _ _ Eg) as [_ N]. apply N.
          pose proof (Hp z y Pz Py) as Hzy.
          destruct Hz as [<-|Hz]; [exact Hzy|].
          inversion SL as [|? ? _ FL]; subst. rewrite Forall_forall in FL.
          eapply (wo_trans _ _ Hwo); eauto. }
        rewrite !filter_app, Hno. cbn [filter app]. rewrite Py. reflexivity.
      + rewrite !filter_app. cbn [filter]. rewrite Py. reflexivity.
    - destruct (fmerge A W func fuel w L (y :: R)) as [[l|] w2] eqn:E; [|discriminate].
      injection H as <- <-.
      assert (SL' : StronglySorted le L) by (inversion SL; assumption).
      pose proof (IH _ _ _ _ _ E SL' SR p Hp) as S1.
      cbn [app filter]. rewrite S1. reflexivity.
  Qed.

  Lemma fsort_ordered fuel w L :
    length L <= S fuel ->
    exists res, fsort A W func fuel w L = (Some (inl res), w) /\
                StronglySorted le res /\ stable_for le L res.
  Proof.
    revert L. induction fuel as [|fuel IH]; intros L HL; cbn [fsort].
    - destruct (Nat.leb_spec (length L) 1) as [H1|H1]; [|lia].
      exists L. split; [reflexivity|split; [|intros p Hp; reflexivity]].
      destruct L as [|a [|b L]]; simpl in H1; try lia; repeat constructor.
    - destruct (Nat.leb_spec (length L) 1) as [H1|H1].
      { exists L. split; [reflexivity|split; [|intros p Hp; reflexivity]].
        destruct L as [|a [|b L]]; simpl in H1; try lia; repeat constructor. }
      destruct (half_bound (length L) ltac:(lia)) as [Hk1 Hk2].
      cbv zeta. set (k := S ((length L - 1) / 2)) in *.
      destruct (IH (firstn k L)) as (L1 & E1 & S1 & T1);
        [rewrite firstn_length; lia|].
      rewrite E1.
      destruct (IH (skipn k L)) as (L2 & E2 & S2 & T2);
        [rewrite skipn_length; lia|].
      rewrite E2.
      destruct (fmerge_pure (length L1 + length L2) w L1 L2 (le_n _)) as [res E3].
      rewrite E3. exists res. split; [reflexivity|].
      split; [eapply fmerge_sorted; eauto|].
      intros p Hp.
      rewrite (fmerge_stable _ _ _ _ _ _ E3 S1 S2 p Hp).
      rewrite filter_app, (T1 p Hp), (T2 p Hp), <- filter_app, firstn_skipn.
      reflexivity.
  Qed.

  Theorem rjs_sort_sorted_stable w base :
    exists res, rjs_sort A W func w base = (SOk res, w) /\
                Permutation base res /\
                StronglySorted le res /\ stable_for le base res.
  Proof.
    destruct (Nat.ltb_spec (length base) 2) as [H|H].
    - exists base. unfold rjs_sort. rewrite (proj2 (Nat.ltb_lt _ _) H).
      split; [reflexivity|]. split; [reflexivity|]. split; [|intros p Hp; reflexivity].
      destruct base as [|a [|b L]]; simpl in H; try lia; repeat constructor.
    - rewrite (rjs_sort_fsort _ _ func w base H).
      destruct (fsort_ordered (length base) w base ltac:(lia)) as (res & E & S1 & T1).
      pose proof (fsort_perm _ _ func (length base) w base ltac:(lia)) as P.
      rewrite E in *. exists res. auto.
  Qed.
End Ordered.

(** ** Array.prototype.sort *)
Section Arr.
  Variable V W : Type.
  Variable user : W -> V -> V -> option cmpres * W.

  Lemma collect_length slots : length (collect V slots) <= length slots.
  Proof. induction slots as [|[v|] t IH]; simpl; lia. Qed.

  Definition defd (l : list (option V)) : list V :=
    flat_map (fun o => match o with Some v => [v] | None => [] end) l.

  Lemma defined_collect slots : defined slots = defd (collect V slots).
  Proof.
    induction slots as [|[[v|]|] t IH]; simpl; [reflexivity|f_equal; exact IH|exact IH|exact IH].
  Qed.

  Lemma counts slots :
    length (collect V slots) = length (defined slots) + undef_count slots /\
    length slots = length (collect V slots) + hole_count slots.
  Proof.
    unfold undef_count, hole_count.
    induction slots as [|[[v|]|] t [IH1 IH2]]; simpl; split; lia.
  Qed.

  Lemma array_sort_throw_unchanged w slots r w' :
    array_sort V W user w slots = (ASThrow r, w') -> r = slots.
  Proof.
    unfold array_sort. intros H.
    destruct (rjs_sort _ _ _ _ _) as [[b|b| |] w1]; congruence.
  Qed.

  Lemma array_sort_not_bad w slots :
    fst (array_sort V W user w slots) <> ASBad.
  Proof.
    unfold array_sort.
    destruct (rjs_sort_permutation (option V) W (array_item_compare_fn V W user) w
               (collect V slots ++ repeat None (length slots - length (collect V slots))))
      as [(res & w' & E & _)|(res & w' & E & _)]; rewrite E; simpl; congruence.
  Qed.

  Variable c : V -> V -> cmpres.
  Variable le : V -> V -> Prop.
  Hypothesis Hpure : pure_cmp user c.
  Hypothesis Hwo : weak_order c le.

  Definition c' (a b : option V) : cmpres :=
    match a, b with
    | None, None => CEqual
    | None, Some _ => CGreater
    | Some _, None => CLess
    | Some x, Some y => c x y
    end.
  Definition le' (a b : option V) : Prop :=
    match a, b with
    | _, None => True
    | None, Some _ => False
    | Some x, Some y => le x y
    end.

  Lemma pure' : pure_cmp (array_item_compare_fn V W user) c'.
  Proof. intros w [x|] [y|]; simpl; auto. Qed.

  Lemma wo' : weak_order c' le'.
  Proof.
    split.
    - intros [x|] [y|]; simpl.
      + apply (wo_le _ _ Hwo).
      + split; [discriminate|auto].
      + split; [contradiction|congruence].
      + split; [discriminate|auto].
    - intros [x|] [y|]; simpl; auto. apply (wo_total _ _ Hwo).
    - intros [x|] [y|] [z|]; simpl; auto; try contradiction.
      apply (wo_trans _ _ Hwo).
  Qed.

  Lemma sorted_split l :
    StronglySorted le' l ->
    l = map Some (defd l) ++ repeat None (length l - length (defd l)) /\
    StronglySorted le (defd l) /\ length (defd l) <= length l.
  Proof.
    induction l as [|[v|] l IH]; intros H.
    - repeat split; constructor.
    - inversion H as [|? ? H1 H2]; subst.
      destruct (IH H1) as (E & S1 & Hl). cbn [defd flat_map] in *. fold (defd l) in *.
      cbn [app length map]. repeat split.
      + replace (S (length l) - S (length (defd l))) with (length l - length (defd l)) by lia.
        cbn [app]. f_equal. exact E.
      + constructor; [exact S1|].
        rewrite Forall_forall in *. intros z Hz.
        assert (In (Some z) l).
        { unfold defd in Hz. apply in_flat_map in Hz.
          destruct Hz as ([u|] & Hu & Hz); [|contradiction].
          destruct Hz as [->|[]]. exact Hu. }
        apply H2 in H0. exact H0.
      + lia.
    - inversion H as [|? ? H1 H2]; subst.
      assert (Hn : forall z, In z l -> z = None).
      { rewrite Forall_forall in H2. intros [z|] Hz; [|reflexivity].
        apply H2 in Hz. contradiction. }
      assert (Hd : defd l = []).
      { clear -Hn. induction l as [|a l IH]; [reflexivity|].
        unfold defd. cbn [flat_map]. rewrite (Hn a (or_introl eq_refl)).
        cbn [app]. apply IH. intros z Hz. apply Hn. right. exact Hz. }
      cbn [defd flat_map app]. fold (defd l). rewrite Hd. cbn [map app length].
      rewrite Nat.sub_0_r.
      repeat split; [|constructor|lia].
      cbn [repeat]. f_equal.
      clear -Hn. induction l as [|a l IH]; [reflexivity|].
      rewrite (Hn a (or_introl eq_refl)). simpl. f_equal. apply IH.
      intros z Hz. apply Hn. right. exact Hz.
  Qed.

  Lemma defd_app a b : defd (a ++ b) = defd a ++ defd b.
  Proof. unfold defd. apply flat_map_app. Qed.

  Lemma defd_repeat_none n : defd (repeat None n) = [].
  Proof. induction n; simpl; auto. Qed.

  Lemma defd_filter p l :
    filter p (defd l) =
    defd (filter (fun o => match o with Some v => p v | None => false end) l).
  Proof.
    induction l as [|[v|] l IH]; simpl; [reflexivity| |exact IH].
    destruct (p v); simpl; rewrite IH; reflexivity.
  Qed.

  Lemma defd_perm a b : Permutation a b -> Permutation (defd a) (defd b).
  Proof. intros H. unfold defd. apply Permutation_flat_map. exact H. Qed.

  (** Full functional description of Array.prototype.sort. *)
  Theorem array_sort_correct w slots :
    exists sorted,
      array_sort V W user w slots =
      (ASOk (map (fun v => Some (Some v)) sorted
               ++ repeat (Some None) (undef_count slots)
               ++ repeat None (hole_count slots)), w) /\
      Permutation (defined slots) sorted /\
      StronglySorted le sorted /\ stable_for le (defined slots) sorted.
  Proof.
    unfold array_sort.
    destruct (rjs_sort_sorted_stable (option V) W (array_item_compare_fn V W user) c' le'
                pure' wo' w
               (collect V slots ++ repeat None (length slots - length (collect V slots))))
      as (res & E & P & S1 & T1).
    rewrite E. exists (defd res).
    destruct (sorted_split res S1) as (Er & S2 & Hl).
    destruct (counts slots) as [C1 C2].
    assert (Hd : Permutation (defined slots) (defd res)).
    { rewrite defined_collect. apply defd_perm in P.
      rewrite defd_app, defd_repeat_none, app_nil_r in P. exact P. }
    assert (Hlr : length res = length slots).
    { apply Permutation_length in P. rewrite app_length, repeat_length in P. lia. }
    assert (Hld : length (defd res) = length (defined slots))
      by (symmetry; apply Permutation_length, Hd).
    split; [|split; [exact Hd|split; [exact S2|]]].
    - f_equal. f_equal.
      replace (length slots - length (collect V slots)) with (hole_count slots) by lia.
      rewrite app_assoc. f_equal.
      assert (Hf : firstn (length (collect V slots)) res =
                   map Some (defd res) ++ repeat None (undef_count slots)).
      { rewrite Er at 1. rewrite firstn_app.
        rewrite firstn_all2 by (rewrite map_length; lia).
        f_equal. rewrite map_length.
        replace (length (collect V slots) - length (defd res)) with (undef_count slots) by lia.
        assert (Hge : undef_count slots <= length res - length (defd res)) by lia.
        clear -Hge. revert Hge. generalize (length res - length (defd res)).
        induction (undef_count slots) as [|n IH]; intros [|k] Hk; simpl; try lia;
          [reflexivity|reflexivity|].
        f_equal. apply IH. lia. }
      rewrite Hf, map_app, map_map. f_equal.
      clear. induction (undef_count slots) as [|n IH]; simpl; [reflexivity|].
      f_equal. exact IH.
    - intros p Hp. rewrite defined_collect, !defd_filter.
      rewrite (T1 (fun o => match o with Some v => p v | None => false end)).
      + rewrite filter_app, defd_app.
        replace (defd (filter _ (repeat None _))) with (@nil V);
          [rewrite app_nil_r; reflexivity|].
        generalize (length slots - length (collect V slots)). clear.
        induction n as [|n IH]; simpl; auto.
      + intros [x|] [y|]; simpl; try discriminate; auto.
  Qed.
End Arr.

(** ** Typed arrays *)
From Coq Require Import ZArith.

(** The model comparison on [dnum] elements. *)
Definition dnum_cmp (a b : dnum) : cmpres :=
  match a, b with
  | DNaN, DNaN => typed_array_element_cmp true 0 false true 0 false
  | DNaN, DVal y ny => typed_array_element_cmp true 0 false false y ny
  | DVal x nx, DNaN => typed_array_element_cmp false x nx true 0 false
  | DVal x nx, DVal y ny => typed_array_element_cmp false x nx false y ny
  end.

Lemma dnum_weak_order : weak_order dnum_cmp dnum_le.
Proof.
  split.
  - intros [|x nx] [|y ny]; cbn; try (split; [discriminate || contradiction|auto; congruence]).
    unfold typed_array_element_cmp. cbn.
    destruct (Z.ltb_spec x y); [split; [discriminate|left; assumption]|].
    destruct (Z.ltb_spec y x).
    + split; [lia|congruence].
    + destruct nx, ny; cbn; split; intros; try discriminate; try lia; try congruence;
        right; split; auto; lia.
  - intros [|x nx] [|y ny]; cbn; auto.
    destruct (Z.lt_trichotomy x y) as [?|[?|?]]; auto.
    destruct nx, ny; auto 10.
  - intros [|x nx] [|y ny] [|z nz]; cbn; auto; try contradiction.
    intros [H1|[-> H1]] [H2|[-> H2]]; try (left; lia).
    right. split; [reflexivity|].
    destruct nx, ny, nz; auto; destruct H1, H2; try discriminate; auto.
Qed.

Lemma dnum_cmp_exact : forall x y,
  (dnum_cmp x y = CLess <-> dnum_le x y /\ ~ dnum_le y x) /\
  (dnum_cmp x y = CGreater <-> dnum_le y x /\ ~ dnum_le x y) /\
  (dnum_cmp x y = CEqual <-> dnum_le x y /\ dnum_le y x).
Proof.
  intros [|x nx] [|y ny]; cbn; try (intuition discriminate).
  unfold typed_array_element_cmp. cbn.
  destruct (Z.ltb_spec x y); [intuition (discriminate || lia)|].
  destruct (Z.ltb_spec y x); [intuition (discriminate || lia)|].
  assert (x = y) by lia. subst y.
  destruct nx, ny; cbn; intuition (discriminate || lia || auto).
Qed.
