(** Proofs about the hash table model. *)
From Coq Require Import List Arith Bool Lia Permutation.
Import ListNotations.
From Verif Require Import HashModel HashSpec.

Lemma nth_error_split_upd {X} (l : list X) i y :
  nth_error l i = Some y ->
  exists a b, l = a ++ y :: b /\ length a = i /\
              forall x, upd l i x = Some (a ++ x :: b).
Proof.
  revert i. induction l as [|z l IH]; intros [|i] H; simpl in *; try discriminate.
  - injection H as ->. exists [], l. auto.
  - destruct (IH i H) as (a & b & -> & <- & Hu).
    exists (z :: a), b. repeat split; auto. intros x. rewrite Hu. reflexivity.
Qed.

Lemma insert_at_end {X} (l : list X) x : insert_at l (length l) x = Some (l ++ [x]).
Proof. induction l as [|y l IH]; simpl; [reflexivity|]. rewrite IH. reflexivity. Qed.

Lemma insert_at_0 {X} (l : list X) x : insert_at l 0 x = Some (x :: l).
Proof. destruct l; reflexivity. Qed.

Lemma remove_at_spec {X} (l : list X) pos x :
  nth_error l pos = Some x ->
  exists a b, l = a ++ x :: b /\ remove_at l pos = Some (a ++ b).
Proof.
  revert pos. induction l as [|z l IH]; intros [|pos] H; simpl in *; try discriminate.
  - injection H as ->. exists [], l. auto.
  - destruct (IH pos H) as (a & b & -> & Hr). exists (z :: a), b. split; auto.
    simpl. rewrite Hr. reflexivity.
Qed.

Section P.
  Variable K E : Type.
  Variable hkey : K -> nat.
  Variable keq : K -> K -> bool.
  Hypothesis keq_refl : forall a, keq a a = true.
  Hypothesis keq_sym : forall a b, keq a b = true -> keq b a = true.
  Hypothesis keq_trans : forall a b c, keq a b = true -> keq b c = true -> keq a c = true.
  Hypothesis hkey_keq : forall a b, keq a b = true -> hkey a = hkey b.

  Notation hash := (hash K E).
  Notation ent := (K * E)%type.

  (** Keys pairwise different. *)
  Inductive uniq : list ent -> Prop :=
  | uniq_nil : uniq []
  | uniq_cons e l : (forall e', In e' l -> keq (fst e) (fst e') = false) ->
                    uniq l -> uniq (e :: l).

  Lemma keq_sym_f a b : keq a b = false -> keq b a = false.
  Proof.
    intros H. destruct (keq b a) eqn:E1; [|reflexivity].
    apply keq_sym in E1. congruence.
  Qed.

  Lemma uniq_perm l l' : Permutation l l' -> uniq l -> uniq l'.
  Proof.
    induction 1 as [|x l l' P IH|x y l|l l' l'' P1 IH1 P2 IH2]; intros U.
    - exact U.
    - inversion U as [|? ? H1 H2]; subst. constructor; [|auto].
      intros e' He'. apply H1. eapply Permutation_in; [symmetry; exact P|exact He'].
    - inversion U as [|? ? H1 U1]; subst. inversion U1 as [|? ? H2 U2]; subst.
      constructor; [|constructor; [|exact U2]].
      + intros e' [<-|He'].
        * apply keq_sym_f. apply H1. left; reflexivity.
        * apply H2. exact He'.
      + intros e' He'. apply H1. right. exact He'.
    - auto.
  Qed.

  Lemma uniq_app_single l e :
    uniq l -> (forall e', In e' l -> keq (fst e') (fst e) = false) -> uniq (l ++ [e]).
  Proof.
    intros U H. apply (uniq_perm (e :: l)); [apply Permutation_cons_append|].
    constructor; [|exact U]. intros e' He'. apply keq_sym_f, H, He'.
  Qed.

  Lemma uniq_filter p l : uniq l -> uniq (filter p l).
  Proof.
    induction 1 as [|e l H U IH]; simpl; [constructor|].
    destruct (p e); [|exact IH]. constructor; [|exact IH].
    intros e' He'. apply filter_In in He'. apply H, He'.
  Qed.

  Lemma sget_in m k e :
    uniq m -> In e m -> keq (fst e) k = true -> sget K E keq m k = Some e.
  Proof.
    unfold sget. intros U. induction U as [|a l H U IH]; intros Hin He; [contradiction|].
    simpl. destruct (keq (fst a) k) eqn:Ea.
    - destruct Hin as [->|Hin]; [reflexivity|].
      exfalso. specialize (H e Hin).
      assert (keq (fst a) (fst e) = true) by (eapply keq_trans; [exact Ea|apply keq_sym; exact He]).
      congruence.
    - destruct Hin as [->|Hin]; [congruence|]. auto.
  Qed.

  Lemma sget_none m k :
    (forall e, In e m -> keq (fst e) k = false) -> sget K E keq m k = None.
  Proof.
    intros H. unfold sget. destruct (find _ m) as [e|] eqn:F; [|reflexivity].
    apply find_some in F. destruct F as [F1 F2]. rewrite (H e F1) in F2. discriminate.
  Qed.

  Lemma sget_none_inv m k e :
    sget K E keq m k = None -> In e m -> keq (fst e) k = false.
  Proof.
    unfold sget. intros H Hin. exact (find_none _ _ H e Hin).
  Qed.

  (** Representation invariant tying a table to a list of bindings. *)
  Record Inv (h : hash) (m : list ent) : Prop := {
    inv_perm : Permutation (concat (lists K E h)) m;
    inv_num : entry_num K E h = length m;
    inv_pos : 1 <= list_num K E h;
    inv_load : entry_num K E h <= 3 * list_num K E h;
    inv_place : forall i chain e, nth_error (lists K E h) i = Some chain ->
                                  In e chain -> i = bucket K E hkey h (fst e);
    inv_uniq : uniq m
  }.

  Lemma inv_init : Inv (hash_init K E) [].
  Proof.
    split; simpl; auto; try (unfold list_num; simpl; lia).
    - intros [|[|i]] chain e H He; simpl in H; try discriminate.
      injection H as <-. contradiction.
    - constructor.
  Qed.

  Lemma bucket_lt h k : 1 <= list_num K E h -> bucket K E hkey h k < list_num K E h.
  Proof.
    intros H. unfold bucket. destruct (Nat.eqb_spec (list_num K E h) 1); [lia|].
    apply Nat.mod_upper_bound. lia.
  Qed.

  Lemma bucket_keq h a b : keq a b = true -> bucket K E hkey h a = bucket K E hkey h b.
  Proof. intros H. unfold bucket. rewrite (hkey_keq _ _ H). reflexivity. Qed.

  Lemma walk_spec chain k pos :
    match walk K E keq chain k pos with
    | (Some e, p) => exists q, p = pos + q /\ nth_error chain q = Some e /\ keq (fst e) k = true
    | (None, p) => p = pos + length chain /\ forall e, In e chain -> keq (fst e) k = false
    end.
  Proof.
    revert pos. induction chain as [|a chain IH]; intros pos; simpl.
    - split; [lia|contradiction].
    - destruct (keq (fst a) k) eqn:Ea.
      + exists 0. rewrite Nat.add_0_r. auto.
      + specialize (IH (S pos)). destruct (walk K E keq chain k (S pos)) as [[e|] p].
        * destruct IH as (q & -> & H1 & H2). exists (S q). split; [lia|]. split; auto.
        * destruct IH as [-> H]. split; [lia|]. intros e [<-|He]; auto.
  Qed.

  Lemma in_concat_nth (ls : list (list ent)) e :
    In e (concat ls) <-> exists i chain, nth_error ls i = Some chain /\ In e chain.
  Proof.
    rewrite in_concat. split.
    - intros (c & Hc & He). apply In_nth_error in Hc. destruct Hc as [i Hi]. eauto.
    - intros (i & c & Hi & He). exists c. split; [|exact He].
      eapply nth_error_In; eauto.
  Qed.

  Lemma lookup_spec h m k :
    Inv h m ->
    exists pe, rjs_hash_lookup K E hkey keq h k = Some (sget K E keq m k, pe) /\
      match sget K E keq m k with
      | Some e => exists chain pos, pe = Some (bucket K E hkey h k, pos) /\
                    nth_error (lists K E h) (bucket K E hkey h k) = Some chain /\
                    nth_error chain pos = Some e /\ keq (fst e) k = true
      | None => pe = None \/
                exists chain, pe = Some (bucket K E hkey h k, length chain) /\
                    nth_error (lists K E h) (bucket K E hkey h k) = Some chain
      end.
  Proof.
    intros I. unfold rjs_hash_lookup.
    destruct (Nat.eqb_spec (entry_num K E h) 0) as [H0|H0].
    - assert (m = []) by (destruct m; [reflexivity|]; pose proof (inv_num _ _ I); simpl in *; lia).
      subst. exists None. split; [reflexivity|]. simpl. auto.
    - cbv zeta.
      pose proof (bucket_lt h k (inv_pos _ _ I)) as Hb.
      destruct (nth_error (lists K E h) (bucket K E hkey h k)) as [chain|] eqn:En;
        [|apply nth_error_None in En; unfold list_num in Hb; lia].
      pose proof (walk_spec chain k 0) as Hw.
      destruct (walk K E keq chain k 0) as [[e|] p] eqn:Ew.
      + destruct Hw as (q & Hp & H1 & H2). simpl in Hp. subst p.
        assert (Hin : In e m).
        { eapply Permutation_in; [apply (inv_perm _ _ I)|].
          apply in_concat_nth. exists (bucket K E hkey h k), chain. split; auto.
          eapply nth_error_In; eauto. }
        rewrite (sget_in m k e (inv_uniq _ _ I) Hin H2).
        exists (Some (bucket K E hkey h k, q)). split; [reflexivity|].
        exists chain, q. auto.
      + destruct Hw as [Hp H]. simpl in Hp. subst p.
        rewrite (sget_none m k).
        * exists (Some (bucket K E hkey h k, length chain)). split; [reflexivity|].
          right. exists chain. auto.
        * intros e He.
          apply (Permutation_in _ (Permutation_sym (inv_perm _ _ I))) in He.
          apply in_concat_nth in He. destruct He as (i & c & Hi & Hc).
          destruct (keq (fst e) k) eqn:Ek; [|reflexivity].
          pose proof (inv_place _ _ I i c e Hi Hc) as Hpl.
          rewrite (bucket_keq h _ _ Ek) in Hpl. subst i.
          rewrite En in Hi. injection Hi as <-. rewrite (H e Hc) in Ek. discriminate.
  Qed.

  (** *** Expansion *)
  Definition placed_mod (ns : nat) (nb : list (list ent)) : Prop :=
    forall i chain e, nth_error nb i = Some chain -> In e chain -> i = hkey (fst e) mod ns.

  Lemma nth_error_upd_eq {X} (a : list X) x b j y :
    nth_error (a ++ x :: b) j = Some y ->
    (j = length a /\ y = x) \/ (j <> length a /\ forall z, nth_error (a ++ z :: b) j = Some y).
  Proof.
    intros H. destruct (Nat.eq_dec j (length a)) as [->|N].
    - left. rewrite nth_error_app2, Nat.sub_diag in H by lia. simpl in H. split; congruence.
    - right. split; [exact N|]. intros z.
      destruct (Nat.lt_ge_cases j (length a)) as [L|L].
      + rewrite nth_error_app1 in * by lia. exact H.
      + rewrite nth_error_app2 in * by lia.
        destruct (j - length a) eqn:D; [lia|]. exact H.
  Qed.

  Lemma rehash_entry_spec ns nb e :
    1 <= ns -> length nb = ns -> placed_mod ns nb ->
    exists nb', rehash_entry K E hkey ns (Some nb) e = Some nb' /\ length nb' = ns /\
                placed_mod ns nb' /\ Permutation (concat nb') (e :: concat nb).
  Proof.
    intros H1 H2 H3. unfold rehash_entry.
    assert (Hp : hkey (fst e) mod ns < ns) by (apply Nat.mod_upper_bound; lia).
    set (p := hkey (fst e) mod ns) in *.
    destruct (nth_error nb p) as [chain|] eqn:En; [|apply nth_error_None in En; lia].
    destruct (nth_error_split_upd _ _ _ En) as (a & b & E1 & E2 & Hu).
    rewrite Hu. exists (a ++ (e :: chain) :: b). split; [reflexivity|].
    repeat split.
    - rewrite E1 in H2. rewrite app_length in *. simpl in *. lia.
    - intros i c e' Hi He'.
      apply nth_error_upd_eq in Hi. destruct Hi as [[-> ->]|[N Hi]].
      + destruct He' as [<-|He']; [exact E2|].
        rewrite E2. apply (H3 p chain e' En He').
      + specialize (Hi chain). rewrite <- E1 in Hi. apply (H3 i c e' Hi He').
    - rewrite E1, !concat_app. simpl.
      symmetry. apply Permutation_middle.
  Qed.

  Lemma rehash_fold_spec ns es nb :
    1 <= ns -> length nb = ns -> placed_mod ns nb ->
    exists nb', fold_left (rehash_entry K E hkey ns) es (Some nb) = Some nb' /\ length nb' = ns /\
                placed_mod ns nb' /\ Permutation (concat nb') (es ++ concat nb).
  Proof.
    intros H1. revert nb. induction es as [|e es IH]; intros nb H2 H3; cbn [fold_left].
    - exists nb. auto.
    - destruct (rehash_entry_spec ns nb e H1 H2 H3) as (nb1 & E1 & L1 & P1 & Q1).
      rewrite E1. destruct (IH nb1 L1 P1) as (nb2 & E2 & L2 & P2 & Q2).
      exists nb2. repeat split; auto.
      rewrite Q2, Q1. simpl. symmetry. apply Permutation_middle.
  Qed.

  Lemma fold_concat {X Y} (f : Y -> X -> Y) (ls : list (list X)) (y : Y) :
    fold_left (fun acc c => fold_left f c acc) ls y = fold_left f (concat ls) y.
  Proof.
    revert y. induction ls as [|c ls IH]; intros y; simpl; [reflexivity|].
    rewrite IH, fold_left_app. reflexivity.
  Qed.

  Lemma concat_repeat_nil n : concat (repeat (@nil ent) n) = [].
  Proof. induction n; simpl; auto. Qed.

  Lemma expand_spec h m :
    Inv h m -> exists h', hash_expand K E hkey h = Some h' /\ Inv h' m /\
                          list_num K E h' = Nat.max (entry_num K E h) 8.
  Proof.
    intros I. unfold hash_expand. cbv zeta. rewrite fold_concat.
    set (ns := Nat.max (entry_num K E h) 8).
    destruct (rehash_fold_spec ns (concat (lists K E h)) (repeat [] ns))
      as (nb & E1 & L1 & P1 & Q1).
    - unfold ns. lia.
    - apply repeat_length.
    - intros i chain e Hi He. apply nth_error_In in Hi. apply repeat_spec in Hi.
      subst. contradiction.
    - rewrite E1. exists (mkHash K E nb (entry_num K E h)). split; [reflexivity|].
      rewrite concat_repeat_nil, app_nil_r in Q1.
      split; [|unfold list_num; simpl; exact L1].
      split; simpl; unfold list_num; simpl.
      + rewrite Q1. apply (inv_perm _ _ I).
      + apply (inv_num _ _ I).
      + unfold ns in L1. lia.
      + unfold ns in L1. lia.
      + intros i chain e Hi He. unfold bucket, list_num. simpl. rewrite L1.
        destruct (Nat.eqb_spec ns 1); [unfold ns in *; lia|].
        apply (P1 i chain e Hi He).
      + apply (inv_uniq _ _ I).
  Qed.

  (** *** Insertion at a position of the right chain *)
  Lemma insert_core h m k e chain chain' :
    Inv h m -> sget K E keq m k = None ->
    entry_num K E h < 3 * list_num K E h ->
    nth_error (lists K E h) (bucket K E hkey h k) = Some chain ->
    Permutation chain' ((k, e) :: chain) ->
    exists ls, upd (lists K E h) (bucket K E hkey h k) chain' = Some ls /\
               Inv (mkHash K E ls (S (entry_num K E h))) (m ++ [(k, e)]).
  Proof.
    intros I Hn Hl En P.
    destruct (nth_error_split_upd _ _ _ En) as (a & b & E1 & E2 & Hu).
    rewrite Hu. exists (a ++ chain' :: b). split; [reflexivity|].
    assert (Hlen : length (a ++ chain' :: b) = list_num K E h).
    { unfold list_num. rewrite E1, !app_length. reflexivity. }
    split; simpl; unfold list_num in *; simpl.
    - rewrite <- (inv_perm _ _ I). rewrite E1, !concat_app. simpl. rewrite P.
      rewrite <- Permutation_cons_append. simpl. symmetry. apply Permutation_middle.
    - rewrite app_length, (inv_num _ _ I). simpl. lia.
    - pose proof (inv_pos _ _ I). unfold list_num in *. lia.
    - rewrite Hlen. lia.
    - assert (Hbk : forall x, bucket K E hkey (mkHash K E (a ++ chain' :: b) (S (entry_num K E h))) x
                          = bucket K E hkey h x).
      { intros x. unfold bucket, list_num. simpl. rewrite Hlen. reflexivity. }
      intros i c e' Hi He'. rewrite Hbk.
      apply nth_error_upd_eq in Hi. destruct Hi as [[-> ->]|[N Hi]].
      + apply (Permutation_in _ P) in He'. destruct He' as [<-|He'].
        * exact E2.
        * rewrite E2. apply (inv_place _ _ I _ chain e' En He').
      + specialize (Hi chain). rewrite <- E1 in Hi.
        apply (inv_place _ _ I i c e' Hi He').
    - apply uniq_app_single; [apply (inv_uniq _ _ I)|].
      intros e' He'. simpl. eapply sget_none_inv; eauto.
  Qed.

  Lemma insert_null h m k e :
    Inv h m -> sget K E keq m k = None ->
    exists h', rjs_hash_insert K E hkey h k e None = Some h' /\ Inv h' (m ++ [(k, e)]).
  Proof.
    intros I Hn. unfold rjs_hash_insert.
    destruct (Nat.leb_spec (list_num K E h * 3) (entry_num K E h)) as [Hex|Hex].
    - destruct (expand_spec h m I) as (h1 & E1 & I1 & L1). rewrite E1.
      pose proof (bucket_lt h1 k (inv_pos _ _ I1)) as Hb.
      destruct (nth_error (lists K E h1) (bucket K E hkey h1 k)) as [chain|] eqn:En;
        [|apply nth_error_None in En; unfold list_num in Hb; lia].
      rewrite insert_at_0.
      destruct (insert_core h1 m k e chain ((k, e) :: chain) I1 Hn) as (ls & Eu & Iu); auto.
      + rewrite L1. pose proof (inv_num _ _ I). pose proof (inv_num _ _ I1). lia.
      + rewrite Eu. eauto.
    - pose proof (bucket_lt h k (inv_pos _ _ I)) as Hb.
      destruct (nth_error (lists K E h) (bucket K E hkey h k)) as [chain|] eqn:En;
        [|apply nth_error_None in En; unfold list_num in Hb; lia].
      rewrite insert_at_0.
      destruct (insert_core h m k e chain ((k, e) :: chain) I Hn) as (ls & Eu & Iu); auto; [lia|].
      rewrite Eu. eauto.
  Qed.

  Lemma insert_pe h m k e chain :
    Inv h m -> sget K E keq m k = None ->
    nth_error (lists K E h) (bucket K E hkey h k) = Some chain ->
    exists h', rjs_hash_insert K E hkey h k e (Some (bucket K E hkey h k, length chain)) = Some h'
               /\ Inv h' (m ++ [(k, e)]).
  Proof.
    intros I Hn En.
    destruct (Nat.leb_spec (list_num K E h * 3) (entry_num K E h)) as [Hex|Hex].
    - destruct (insert_null h m k e I Hn) as (h' & E1 & I1). exists h'.
      split; [|exact I1]. unfold rjs_hash_insert in *.
      rewrite (proj2 (Nat.leb_le _ _) Hex) in *. exact E1.
    - unfold rjs_hash_insert. rewrite (proj2 (Nat.leb_gt _ _) Hex).
      rewrite En, insert_at_end.
      destruct (insert_core h m k e chain (chain ++ [(k, e)]) I Hn) as (ls & Eu & Iu); auto;
        [lia|symmetry; apply Permutation_cons_append|].
      rewrite Eu. eauto.
  Qed.

  Lemma sdel_perm m e k :
    uniq m -> In e m -> keq (fst e) k = true ->
    Permutation m (e :: sdel K E keq m k).
  Proof.
    unfold sdel. intros U. induction U as [|a l H U IH]; intros Hin He; [contradiction|].
    simpl. destruct Hin as [->|Hin].
    - rewrite He. simpl. constructor.
      assert (Hall : filter (fun b => negb (keq (fst b) k)) l = l).
      { clear IH U. induction l as [|x l IHl]; [reflexivity|]. simpl.
        destruct (keq (fst x) k) eqn:Ex.
        - exfalso. specialize (H x (or_introl eq_refl)).
          assert (keq (fst e) (fst x) = true)
            by (eapply keq_trans; [exact He|apply keq_sym; exact Ex]). congruence.
        - simpl. f_equal. apply IHl. intros y Hy. apply H. right. exact Hy. }
      rewrite Hall. reflexivity.
    - destruct (keq (fst a) k) eqn:Ea.
      + exfalso. specialize (H e Hin).
        assert (keq (fst a) (fst e) = true)
          by (eapply keq_trans; [exact Ea|apply keq_sym; exact He]). congruence.
      + simpl. rewrite (IH Hin He) at 1. apply perm_swap.
  Qed.

  Lemma remove_spec h m k e chain pos :
    Inv h m -> nth_error (lists K E h) (bucket K E hkey h k) = Some chain ->
    nth_error chain pos = Some e -> keq (fst e) k = true ->
    exists h', rjs_hash_remove K E h (Some (bucket K E hkey h k, pos)) = Some h' /\
               Inv h' (sdel K E keq m k).
  Proof.
    intros I En Ep Hk. unfold rjs_hash_remove. rewrite En.
    destruct (remove_at_spec _ _ _ Ep) as (c1 & c2 & Ec & Er). rewrite Er.
    destruct (nth_error_split_upd _ _ _ En) as (a & b & E1 & E2 & Hu).
    rewrite Hu. eexists. split; [reflexivity|].
    assert (Hlen : length (a ++ (c1 ++ c2) :: b) = list_num K E h).
    { unfold list_num. rewrite E1, !app_length. reflexivity. }
    assert (Hin : In e m).
    { eapply Permutation_in; [apply (inv_perm _ _ I)|]. apply in_concat_nth.
      exists (bucket K E hkey h k), chain. split; auto. eapply nth_error_In; eauto. }
    pose proof (sdel_perm m e k (inv_uniq _ _ I) Hin Hk) as Pd.
    assert (Pc : Permutation (concat (a ++ (c1 ++ c2) :: b)) (sdel K E keq m k)).
    { apply (Permutation_cons_inv (a := e)).
      rewrite <- Pd, <- (inv_perm _ _ I), E1, Ec, !concat_app. simpl.
      rewrite <- !app_assoc. simpl.
      rewrite !(app_assoc (concat a) c1). apply Permutation_middle. }
    pose proof (Permutation_length Pd) as Ld. simpl in Ld.
    split; simpl; unfold list_num in *; simpl.
    - exact Pc.
    - rewrite (inv_num _ _ I). lia.
    - pose proof (inv_pos _ _ I). unfold list_num in *. lia.
    - pose proof (inv_load _ _ I). unfold list_num in *. lia.
    - assert (Hbk : forall n x, bucket K E hkey (mkHash K E (a ++ (c1 ++ c2) :: b) n) x
                          = bucket K E hkey h x).
      { intros n x. unfold bucket, list_num. simpl. rewrite Hlen. reflexivity. }
      intros i c e' Hi He'. rewrite Hbk.
      apply nth_error_upd_eq in Hi. destruct Hi as [[-> ->]|[N Hi]].
      + rewrite E2. apply (inv_place _ _ I _ chain e' En). rewrite Ec.
        apply in_app_iff in He'. apply in_app_iff. simpl. tauto.
      + specialize (Hi chain). rewrite <- E1 in Hi.
        apply (inv_place _ _ I i c e' Hi He').
    - apply uniq_filter. apply (inv_uniq _ _ I).
  Qed.

  Lemma sdel_absent m k : sget K E keq m k = None -> sdel K E keq m k = m.
  Proof.
    intros H. unfold sdel.
    assert (Ha : forall e, In e m -> keq (fst e) k = false)
      by (intros e He; eapply sget_none_inv; eauto).
    clear H. induction m as [|x m IH]; [reflexivity|]. simpl.
    rewrite (Ha x (or_introl eq_refl)). simpl. f_equal. apply IH.
    intros e He. apply Ha. right. exact He.
  Qed.

  Lemma hstep_spec h m o :
    Inv h m -> exists h', hstep K E hkey keq h o = Some h' /\ Inv h' (sstep K E keq m o).
  Proof.
    intros I. destruct o as [k e|k e|k]; simpl.
    - destruct (lookup_spec h m k I) as (pe & E1 & H). rewrite E1. unfold sadd.
      destruct (sget K E keq m k) as [e'|] eqn:Es; [eauto|].
      destruct H as [->|(chain & -> & En)].
      + apply insert_null; auto.
      + eapply insert_pe; eauto.
    - destruct (lookup_spec h m k I) as (pe & E1 & H). rewrite E1. unfold sadd.
      destruct (sget K E keq m k) as [e'|] eqn:Es; [eauto|].
      apply insert_null; auto.
    - destruct (lookup_spec h m k I) as (pe & E1 & H). rewrite E1.
      destruct (sget K E keq m k) as [e'|] eqn:Es.
      + destruct H as (chain & pos & -> & En & Ep & Hk).
        eapply remove_spec; eauto.
      + rewrite (sdel_absent m k Es). eauto.
  Qed.

  Lemma hrun_inv ops h m :
    Inv h m -> exists h', hrun K E hkey keq h ops = Some h' /\
                          Inv h' (fold_left (sstep K E keq) ops m).
  Proof.
    revert h m. induction ops as [|o ops IH]; intros h m I; simpl; [eauto|].
    destruct (hstep_spec h m o I) as (h1 & E1 & I1). rewrite E1. auto.
  Qed.

  Theorem hash_refines_map :
    forall ops, exists h,
      hrun K E hkey keq (hash_init K E) ops = Some h /\
      entry_num K E h = length (srun K E keq ops) /\
      entry_num K E h <= 3 * list_num K E h /\
      Permutation (concat (lists K E h)) (srun K E keq ops) /\
      forall k, exists pe,
        rjs_hash_lookup K E hkey keq h k = Some (sget K E keq (srun K E keq ops) k, pe).
  Proof.
    intros ops. destruct (hrun_inv ops _ _ inv_init) as (h & E1 & I).
    exists h. split; [exact E1|]. split; [apply (inv_num _ _ I)|].
    split; [apply (inv_load _ _ I)|]. split; [apply (inv_perm _ _ I)|].
    intros k. destruct (lookup_spec h _ k I) as (pe & Hl & _). eauto.
  Qed.
End P.
