(** Proofs about Map/Set iteration. *)
From Coq Require Import List Arith Bool Lia Permutation Sorted.
Import ListNotations.
From Verif Require Import HashModel HashSpec HashProofs MapIterModel MapIterSpec.

Lemma set_nth_length {X} (l : list X) n x : length (set_nth l n x) = length l.
Proof. revert n. induction l; intros [|n]; simpl; auto. Qed.

Lemma Forall2_set_nth {X Y} (P : X -> Y -> Prop) l l' n x y :
  Forall2 P l l' -> P x y -> Forall2 P (set_nth l n x) (set_nth l' n y).
Proof.
  intros H Hxy. revert n. induction H; intros [|n]; simpl; constructor; auto.
Qed.

Lemma Forall2_nth {X Y} (P : X -> Y -> Prop) l l' n :
  Forall2 P l l' ->
  match nth_error l n, nth_error l' n with
  | Some x, Some y => P x y
  | None, None => True
  | _, _ => False
  end.
Proof.
  intros H. revert n. induction H; intros [|n]; simpl; auto. apply IHForall2.
Qed.

Section P.
  Variables K V : Type.
  Variable hkey : K -> nat.
  Variable keq : K -> K -> bool.
  Hypothesis keq_refl : forall a, keq a a = true.
  Hypothesis keq_sym : forall a b, keq a b = true -> keq b a = true.
  Hypothesis keq_trans : forall a b c, keq a b = true -> keq b c = true -> keq a c = true.
  Hypothesis hkey_keq : forall a b, keq a b = true -> hkey a = hkey b.

  Notation entry := (entry K V).
  Notation id := (eid K V).
  Notation HInv := (HashProofs.Inv K nat hkey keq).

  (** Present entries of a log, numbered from [a]. *)
  Fixpoint alive (a : nat) (l : log K V) : list entry :=
    match l with
    | [] => []
    | Some (k, v) :: t => mkEnt K V a k v :: alive (S a) t
    | None :: t => alive (S a) t
    end.

  Definition sorted (el : list entry) : Prop := StronglySorted (fun x y => id x < id y) el.

  Lemma alive_bounds a l e : In e (alive a l) -> a <= id e < a + length l.
  Proof.
    revert a. induction l as [|[[k v]|] t IH]; intros a H; simpl in *; [contradiction| |].
    - destruct H as [<-|H]; [simpl; lia|]. specialize (IH _ H). lia.
    - specialize (IH _ H). lia.
  Qed.

  Lemma alive_sorted a l : sorted (alive a l).
  Proof.
    revert a. induction l as [|[[k v]|] t IH]; intros a; simpl; [constructor| |apply IH].
    constructor; [apply IH|]. apply Forall_forall. intros e He.
    apply alive_bounds in He. simpl. lia.
  Qed.

  Lemma alive_app a l l' : alive a (l ++ l') = alive a l ++ alive (a + length l) l'.
  Proof.
    revert a. induction l as [|[[k v]|] t IH]; intros a; simpl.
    - rewrite Nat.add_0_r. reflexivity.
    - rewrite IH. do 3 f_equal. lia.
    - rewrite IH. do 2 f_equal. lia.
  Qed.

  Definition geq (p : nat) (e : entry) : bool := p <=? id e.

  Lemma seek_alive l p a :
    seek K V l p a = option_map (fun e => (id e, ekey K V e, eval K V e)) (find (geq p) (alive a l)).
  Proof.
    revert a. induction l as [|[[k v]|] t IH]; intros a; simpl; [reflexivity| |apply IH].
    unfold geq at 1. simpl. destruct (p <=? a); [reflexivity|apply IH].
  Qed.

  Lemma sorted_cons x el :
    sorted (x :: el) -> sorted el /\ forall e, In e el -> id x < id e.
  Proof.
    intros H. inversion H as [|? ? H1 H2]; subst. split; [exact H1|].
    apply Forall_forall. exact H2.
  Qed.

  Lemma deref_in el e : sorted el -> In e el -> deref K V el (id e) = Some e.
  Proof.
    intros S. induction el as [|x el IH]; intros H; [contradiction|].
    apply sorted_cons in S. destruct S as [S L]. unfold deref. simpl.
    destruct H as [->|H].
    - rewrite Nat.eqb_refl. reflexivity.
    - specialize (L e H). destruct (Nat.eqb_spec (id x) (id e)); [lia|].
      apply IH; auto.
  Qed.

  Lemma find_in_geq el p e : find (geq p) el = Some e -> In e el /\ p <= id e.
  Proof.
    intros H. apply find_some in H. destruct H as [H1 H2]. split; [exact H1|].
    apply Nat.leb_le. exact H2.
  Qed.

  Lemma find_all el p : (forall e, In e el -> p <= id e) -> find (geq p) el = hd_error el.
  Proof.
    destruct el as [|x el]; intros H; [reflexivity|]. simpl. unfold geq.
    rewrite (proj2 (Nat.leb_le _ _)); [reflexivity|]. apply H. left; reflexivity.
  Qed.

  Lemma first_hd el : first K V el = option_map id (hd_error el).
  Proof. destruct el; reflexivity. Qed.

  (** [next] of a live node is the first node with a larger number. *)
  Lemma next_of_spec el e :
    sorted el -> In e el ->
    next_of K V el (id e) = Some (option_map id (find (geq (S (id e))) el)).
  Proof.
    intros S. induction el as [|x el IH]; intros H; [contradiction|].
    apply sorted_cons in S. destruct S as [S L]. simpl. unfold geq at 1.
    destruct H as [->|H].
    - rewrite Nat.eqb_refl. rewrite (proj2 (Nat.leb_gt _ _)) by lia.
      rewrite find_all by (intros y Hy; apply L; exact Hy).
      destruct el; reflexivity.
    - pose proof (L e H). destruct (Nat.eqb_spec (id x) (id e)); [lia|].
      rewrite (proj2 (Nat.leb_gt _ _)) by lia. apply IH; auto.
  Qed.

  Definition keep (i : nat) (e : entry) : bool := negb (id e =? i).

  Lemma find_keep_other el p i :
    option_map id (find (geq p) el) <> Some i ->
    find (geq p) (filter (keep i) el) = find (geq p) el.
  Proof.
    induction el as [|x el IH]; intros H; [reflexivity|]. simpl in *.
    unfold keep at 1. destruct (Nat.eqb_spec (id x) i) as [E|E]; simpl.
    - destruct (geq p x) eqn:G; [exfalso; apply H; simpl; congruence|]. auto.
    - destruct (geq p x) eqn:G; [reflexivity|]. auto.
  Qed.

  Lemma filter_keep_all el i : (forall e, In e el -> id e <> i) -> filter (keep i) el = el.
  Proof.
    induction el as [|x el IH]; intros H; [reflexivity|]. simpl. unfold keep at 1.
    destruct (Nat.eqb_spec (id x) i) as [E|E]; [exfalso; eapply H; [left; reflexivity|exact E]|].
    simpl. f_equal. apply IH. intros e He. apply H. right; exact He.
  Qed.

  Lemma find_keep_same el p e :
    sorted el -> find (geq p) el = Some e ->
    find (geq p) (filter (keep (id e)) el) = find (geq (S (id e))) el.
  Proof.
    intros S. induction el as [|x el IH]; intros H; [discriminate|].
    apply sorted_cons in S. destruct S as [S L]. simpl in *.
    destruct (geq p x) eqn:G.
    - injection H as ->. unfold keep at 1. rewrite Nat.eqb_refl. simpl.
      unfold geq at 2. rewrite (proj2 (Nat.leb_gt _ _)) by lia.
      rewrite filter_keep_all by (intros y Hy; specialize (L y Hy); lia).
      unfold geq in G. apply Nat.leb_le in G.
      rewrite !find_all; [reflexivity| |].
      + intros y Hy. apply L; exact Hy.
      + intros y Hy. specialize (L y Hy). lia.
    - destruct (find_in_geq _ _ _ H) as [Hin Hp]. pose proof (L e Hin).
      unfold keep at 1. destruct (Nat.eqb_spec (id x) (id e)); [lia|]. simpl.
      rewrite G. unfold geq at 2. rewrite (proj2 (Nat.leb_gt _ _)) by lia. auto.
  Qed.

  (** *** Relation between model and log *)
  Definition Rit (el : list entry) (n : nat) (x : option iter) (c : option (option nat)) : Prop :=
    match x, c with
    | None, None => True
    | Some it, Some None => done it = true /\ curr it = None
    | Some it, Some (Some p) =>
      done it = false /\ p <= n /\ curr it = option_map id (find (geq p) el)
    | _, _ => False
    end.

  Definition binding (e : entry) : K * nat := (ekey K V e, id e).

  Record Rel (s : mo K V) (l : lo K V) : Prop := {
    r_fresh : fresh K V s = length (slog K V l);
    r_list : elist K V s = alive 0 (slog K V l);
    r_tab : HInv (table K V s) (map binding (elist K V s));
    r_it : Forall2 (Rit (elist K V s) (fresh K V s)) (iters K V s) (cursors K V l)
  }.

  Lemma rel_init : Rel (mo_init K V) (lo_init K V).
  Proof. split; simpl; auto. apply inv_init. Qed.

  Lemma rel_sorted s l : Rel s l -> sorted (elist K V s).
  Proof. intros H. rewrite (r_list _ _ H). apply alive_sorted. Qed.

  Lemma rel_lt s l e : Rel s l -> In e (elist K V s) -> id e < fresh K V s.
  Proof.
    intros H He. rewrite (r_list _ _ H) in He. apply alive_bounds in He.
    rewrite (r_fresh _ _ H). simpl in He. lia.
  Qed.

  Lemma Forall2_iters_impl (el el' : list entry) n n' f its cs :
    (forall x c, Rit el n x c -> Rit el' n' (option_map f x) c) ->
    Forall2 (Rit el n) its cs -> Forall2 (Rit el' n') (map_iters f its) cs.
  Proof. intros H. induction 1; simpl; constructor; auto. Qed.

  Lemma Forall2_iters_id (el el' : list entry) n n' its cs :
    (forall x c, Rit el n x c -> Rit el' n' x c) ->
    Forall2 (Rit el n) its cs -> Forall2 (Rit el' n') its cs.
  Proof. intros H. induction 1; simpl; constructor; auto. Qed.

  (** Finding a key in the log / entry list / binding list. *)
  Lemma find_key_alive k l a :
    match find (is_key K V keq k) l, find (fun e => keq (ekey K V e) k) (alive a l) with
    | Some (Some (k1, v1)), Some e => ekey K V e = k1 /\ eval K V e = v1
    | None, None => True
    | _, _ => False
    end.
  Proof.
    revert a. induction l as [|[[k1 v1]|] t IH]; intros a; simpl; auto.
    - destruct (keq k1 k); simpl; auto. apply IH.
    - apply IH.
  Qed.

  Lemma sget_find k el :
    sget K nat keq (map binding el) k = option_map binding (find (fun e => keq (ekey K V e) k) el).
  Proof.
    unfold sget. induction el as [|x el IH]; simpl; [reflexivity|].
    destruct (keq (ekey K V x) k); [reflexivity|apply IH].
  Qed.

  Lemma uniq_key_id s l e e' :
    Rel s l -> In e (elist K V s) -> In e' (elist K V s) ->
    keq (ekey K V e) (ekey K V e') = true -> id e = id e'.
  Proof.
    intros H. pose proof (inv_uniq _ _ _ _ _ _ (r_tab _ _ H)) as U.
    revert U. generalize (elist K V s). intros el.
    induction el as [|x el IH]; intros U H1 H2 HE; [contradiction|].
    simpl in U. inversion U as [|? ? U1 U2]; subst.
    destruct H1 as [->|H1]; destruct H2 as [->|H2]; auto.
    - exfalso. specialize (U1 (binding e') (in_map binding _ _ H2)). simpl in U1. congruence.
    - exfalso. specialize (U1 (binding e) (in_map binding _ _ H1)). simpl in U1.
      apply keq_sym in HE. congruence.
  Qed.

  (** A found key is exactly the node with the found number. *)
  Lemma key_iff_id s l e k :
    Rel s l -> find (fun x => keq (ekey K V x) k) (elist K V s) = Some e ->
    forall x, In x (elist K V s) -> keq (ekey K V x) k = (id x =? id e).
  Proof.
    intros H F x Hx. apply find_some in F. destruct F as [F1 F2].
    destruct (Nat.eqb_spec (id x) (id e)) as [E|E].
    - pose proof (deref_in _ _ (rel_sorted _ _ H) Hx) as D1.
      pose proof (deref_in _ _ (rel_sorted _ _ H) F1) as D2.
      rewrite E, D2 in D1. injection D1 as <-. exact F2.
    - destruct (keq (ekey K V x) k) eqn:G; [|reflexivity]. exfalso. apply E.
      eapply uniq_key_id; eauto.
  Qed.

  Lemma map_ext_in' {X Y} (f g : X -> Y) l : (forall x, In x l -> f x = g x) -> map f l = map g l.
  Proof. apply map_ext_in. Qed.

  Lemma alive_map_set k v l a :
    alive a (map (fun x => match x with
                           | Some (k', v') => if keq k' k then Some (k', v) else x
                           | None => None end) l)
    = map (fun e => if keq (ekey K V e) k then mkEnt K V (id e) (ekey K V e) v else e) (alive a l).
  Proof.
    revert a. induction l as [|[[k1 v1]|] t IH]; intros a; simpl; auto.
    destruct (keq k1 k); simpl; f_equal; auto.
  Qed.

  Lemma alive_ldel k l a :
    alive a (ldel K V keq l k) = filter (fun e => negb (keq (ekey K V e) k)) (alive a l).
  Proof.
    unfold ldel. revert a. induction l as [|[[k1 v1]|] t IH]; intros a; simpl; auto.
    destruct (keq k1 k); simpl; [apply IH|f_equal; apply IH].
  Qed.

  Lemma alive_clear l a : alive a (lclear K V l) = [].
  Proof. unfold lclear. revert a. induction l as [|x l IH]; intros b; simpl; auto. Qed.

  Lemma ldel_length l k : length (ldel K V keq l k) = length l.
  Proof. apply map_length. Qed.

  Lemma find_geq_map (f : entry -> entry) el p :
    (forall e, id (f e) = id e) ->
    option_map id (find (geq p) (map f el)) = option_map id (find (geq p) el).
  Proof.
    intros H. induction el as [|x el IH]; [reflexivity|]. simpl. unfold geq at 1 3. rewrite H.
    destruct (p <=? id x); [simpl; rewrite H; reflexivity|exact IH].
  Qed.

  Lemma sdel_binding el k :
    sdel K nat keq (map binding el) k = map binding (filter (fun e => negb (keq (ekey K V e) k)) el).
  Proof.
    unfold sdel. induction el as [|x el IH]; [reflexivity|]. simpl.
    destruct (keq (ekey K V x) k); simpl; [exact IH|]. f_equal. exact IH.
  Qed.

  Lemma lookup_rel s l k :
    Rel s l ->
    exists pe, rjs_hash_lookup K nat hkey keq (table K V s) k
      = Some (option_map binding (find (fun e => keq (ekey K V e) k) (elist K V s)), pe) /\
      match find (fun e => keq (ekey K V e) k) (elist K V s) with
      | Some e => exists t', rjs_hash_remove K nat (table K V s) pe = Some t' /\
                             HInv t' (sdel K nat keq (map binding (elist K V s)) k)
      | None => forall i, exists t', rjs_hash_insert K nat hkey (table K V s) k i pe = Some t' /\
                             HInv t' (map binding (elist K V s) ++ [(k, i)])
      end.
  Proof.
    intros H. pose proof (r_tab _ _ H) as I.
    destruct (lookup_spec K nat hkey keq keq_sym keq_trans hkey_keq _ _ k I) as (pe & E & S).
    rewrite sget_find in E, S. exists pe. split; [exact E|].
    destruct (find _ (elist K V s)) as [e|] eqn:F; simpl in S.
    - destruct S as (chain & pos & -> & En & Ep & Ek).
      eapply remove_spec; eauto.
    - assert (Hn : sget K nat keq (map binding (elist K V s)) k = None)
        by (rewrite sget_find, F; reflexivity).
      intros i. destruct S as [->|(chain & -> & En)].
      + eapply insert_null; eauto.
      + eapply insert_pe; eauto.
  Qed.

  Lemma bstep_rel s l b :
    Rel s l -> exists s', bstep K V hkey keq s b = Some s' /\ Rel s' (sbstep K V keq l b).
  Proof.
    intros H. destruct b as [k v|k| |]; simpl.
    - (* set *)
      unfold map_set. destruct (lookup_rel s l k H) as (pe & E & S). rewrite E.
      pose proof (find_key_alive k (slog K V l) 0) as FA. rewrite <- (r_list _ _ H) in FA.
      destruct (find (fun e => keq (ekey K V e) k) (elist K V s)) as [e|] eqn:F; simpl.
      + destruct (find_some _ _ F) as [Fin Fk].
        rewrite (deref_in _ _ (rel_sorted _ _ H) Fin).
        eexists. split; [reflexivity|].
        unfold lset. destruct (find (is_key K V keq k) (slog K V l)) as [[[k1 v1]|]|]; try contradiction.
        assert (EL : map (fun x => if id x =? id e then mkEnt K V (id x) (ekey K V x) v else x)
                         (elist K V s)
                 = map (fun x => if keq (ekey K V x) k then mkEnt K V (id x) (ekey K V x) v else x)
                         (elist K V s)).
        { apply map_ext_in. intros x Hx. rewrite (key_iff_id s l e k H F x Hx). reflexivity. }
        split; simpl.
        * rewrite map_length. apply (r_fresh _ _ H).
        * rewrite alive_map_set, EL, (r_list _ _ H). reflexivity.
        * rewrite map_map. replace (map _ (elist K V s)) with (map binding (elist K V s)).
          -- apply (r_tab _ _ H).
          -- apply map_ext. intros x. unfold binding. destruct (id x =? id e); reflexivity.
        * eapply Forall2_iters_id; [|apply (r_it _ _ H)].
          intros [it|] [[p|]|]; simpl; auto. intros (A & B & C). split; [exact A|].
          split; [exact B|]. rewrite find_geq_map; [exact C|].
          intros x. destruct (id x =? id e); reflexivity.
      + destruct (S (fresh K V s)) as (t' & Et & It). rewrite Et.
        eexists. split; [reflexivity|].
        unfold lset. destruct (find (is_key K V keq k) (slog K V l)) as [[[k1 v1]|]|]; try contradiction.
        split; simpl.
        * rewrite app_length, (r_fresh _ _ H). simpl. lia.
        * rewrite alive_app, <- (r_list _ _ H), <- (r_fresh _ _ H). reflexivity.
        * rewrite map_app. exact It.
        * eapply Forall2_iters_impl; [|apply (r_it _ _ H)].
          intros [it|] [[p|]|]; simpl; auto.
          -- intros (A & B & C). unfold fix_add. rewrite C.
             assert (FN : find (geq p) (elist K V s ++ [mkEnt K V (fresh K V s) k v])
                   = match find (geq p) (elist K V s) with
                     | Some x => Some x | None => Some (mkEnt K V (fresh K V s) k v) end).
             { clear -B. induction (elist K V s) as [|x el IH]; simpl.
               - unfold geq. simpl. rewrite (proj2 (Nat.leb_le _ _) B). reflexivity.
               - destruct (geq p x); auto. }
             rewrite FN. destruct (find (geq p) (elist K V s)) eqn:FF; simpl.
             ++ split; [exact A|]. split; [lia|]. exact C.
             ++ rewrite A. simpl. split; [reflexivity|]. split; [lia|reflexivity].
          -- intros (A & B). unfold fix_add. rewrite A, B. auto.
    - (* delete *)
      unfold map_delete. destruct (lookup_rel s l k H) as (pe & E & S). rewrite E.
      destruct (find (fun e => keq (ekey K V e) k) (elist K V s)) as [e|] eqn:F; simpl.
      + destruct S as (t' & Et & It). rewrite Et.
        destruct (find_some _ _ F) as [Fin Fk].
        rewrite (next_of_spec _ _ (rel_sorted _ _ H) Fin).
        eexists. split; [reflexivity|].
        assert (EL : filter (fun x => negb (id x =? id e)) (elist K V s)
                 = filter (fun x => negb (keq (ekey K V x) k)) (elist K V s)).
        { apply filter_ext_in. intros x Hx. rewrite (key_iff_id s l e k H F x Hx). reflexivity. }
        split; simpl.
        * rewrite ldel_length. apply (r_fresh _ _ H).
        * rewrite alive_ldel, EL, (r_list _ _ H). reflexivity.
        * rewrite EL, <- sdel_binding. exact It.
        * eapply Forall2_iters_impl; [|apply (r_it _ _ H)].
          intros [it|] [[p|]|]; simpl; auto.
          -- intros (A & B & C). unfold fix_del. rewrite C.
             destruct (find (geq p) (elist K V s)) as [x|] eqn:FF; simpl.
             ++ destruct (Nat.eqb_spec (id x) (id e)) as [EE|EE]; simpl.
                ** split; [exact A|]. split; [exact B|]. rewrite <- EE.
                   change (fun x0 : entry => negb (id x0 =? id x)) with (keep (id x)).
                   rewrite (find_keep_same _ _ _ (rel_sorted _ _ H) FF). reflexivity.
                ** split; [exact A|]. split; [exact B|]. rewrite C.
                   change (fun x0 : entry => negb (id x0 =? id e)) with (keep (id e)).
                   rewrite find_keep_other; rewrite FF; simpl; [reflexivity|congruence].
             ++ split; [exact A|]. split; [exact B|]. rewrite C.
                change (fun x0 : entry => negb (id x0 =? id e)) with (keep (id e)).
                rewrite find_keep_other; rewrite FF; simpl; [reflexivity|congruence].
          -- intros (A & B). unfold fix_del. rewrite B. simpl. auto.
      + exists s. split; [reflexivity|].
        assert (EL : filter (fun x => negb (keq (ekey K V x) k)) (elist K V s) = elist K V s).
        { pose proof (find_none _ _ F) as FN. clear -FN.
          induction (elist K V s) as [|x el IH]; [reflexivity|]. simpl.
          pose proof (FN x (or_introl eq_refl)) as FNx. simpl in FNx. rewrite FNx. simpl. f_equal. apply IH.
          intros y Hy. apply FN. right; exact Hy. }
        split; simpl.
        * rewrite ldel_length. apply (r_fresh _ _ H).
        * rewrite alive_ldel, <- (r_list _ _ H), EL. reflexivity.
        * apply (r_tab _ _ H).
        * apply (r_it _ _ H).
    - (* clear *)
      eexists. split; [reflexivity|]. split; simpl.
      + unfold lclear. rewrite map_length. apply (r_fresh _ _ H).
      + rewrite alive_clear. reflexivity.
      + apply inv_init.
      + eapply Forall2_iters_impl; [|apply (r_it _ _ H)].
        intros [it|] [[p|]|]; simpl; tauto.
    - (* new iterator *)
      eexists. split; [reflexivity|]. split; simpl; try apply H.
      apply Forall2_app; [apply (r_it _ _ H)|]. constructor; [|constructor].
      simpl. split; [reflexivity|]. split; [lia|].
      rewrite find_all by (intros; lia). apply first_hd.
  Qed.

  Lemma rel_set_iter s l n x c :
    Rel s l -> Rit (elist K V s) (fresh K V s) x c ->
    Rel (set_iter K V s n x) (set_cur K V l n c).
  Proof.
    intros H R. split; simpl; try apply H.
    apply Forall2_set_nth; [apply (r_it _ _ H)|exact R].
  Qed.

  Lemma iter_at_rel s l n :
    Rel s l ->
    match iter_at K V s n, nth_error (cursors K V l) n with
    | Some it, Some (Some (Some p)) =>
      done it = false /\ p <= fresh K V s /\ curr it = option_map id (find (geq p) (elist K V s))
    | Some it, Some (Some None) => done it = true /\ curr it = None
    | None, Some None => True
    | None, None => True
    | _, _ => False
    end.
  Proof.
    intros H. pose proof (Forall2_nth _ _ _ n (r_it _ _ H)) as R. unfold iter_at.
    destruct (nth_error (iters K V s) n) as [[it|]|];
      destruct (nth_error (cursors K V l) n) as [[[p|]|]|]; simpl in R; auto.
  Qed.

  Lemma step_rel s l o :
    Rel s l -> quiet K V o ->
    exists s', step K V hkey keq s o = Some (s', snd (sstep K V keq l o)) /\
               Rel s' (fst (sstep K V keq l o)).
  Proof.
    intros H Q. destruct o as [b|k| |n m1 m2|n|n]; simpl.
    - destruct (bstep_rel s l b H) as (s' & E & R). rewrite E. eauto.
    - unfold map_get. destruct (lookup_rel s l k H) as (pe & E & S). rewrite E.
      pose proof (find_key_alive k (slog K V l) 0) as FA. rewrite <- (r_list _ _ H) in FA.
      unfold lget.
      destruct (find (fun e => keq (ekey K V e) k) (elist K V s)) as [e|] eqn:F; simpl.
      + destruct (find_some _ _ F) as [Fin Fk].
        rewrite (deref_in _ _ (rel_sorted _ _ H) Fin).
        destruct (find (is_key K V keq k) (slog K V l)) as [[[k1 v1]|]|]; try contradiction.
        destruct FA as [_ <-]. eauto.
      + destruct (find (is_key K V keq k) (slog K V l)) as [[[k1 v1]|]|]; try contradiction. eauto.
    - exists s. split; [|exact H]. do 3 f_equal.
      rewrite (inv_num _ _ _ _ _ _ (r_tab _ _ H)), map_length, (r_list _ _ H).
      unfold lsize. generalize 0. generalize (slog K V l).
      intros lg. induction lg as [|[[k v]|] t IH]; intros a; simpl; auto.
    - destruct Q as [-> ->]. unfold live_iter. pose proof (iter_at_rel s l n H) as R.
      unfold advance, iter_next.
      destruct (iter_at K V s n) as [it|] eqn:EI;
        destruct (nth_error (cursors K V l) n) as [[[p|]|]|] eqn:EC; try contradiction; simpl; eauto.
      + destruct R as (A & B & C). rewrite C.
        rewrite seek_alive, <- (r_list _ _ H).
        destruct (find (geq p) (elist K V s)) as [e|] eqn:F; simpl.
        * destruct (find_in_geq _ _ _ F) as [Fin Fp].
          rewrite (deref_in _ _ (rel_sorted _ _ H) Fin).
          rewrite EI, C. simpl.
          rewrite (next_of_spec _ _ (rel_sorted _ _ H) Fin).
          eexists. split; [reflexivity|]. apply rel_set_iter; [exact H|]. simpl.
          pose proof (rel_lt _ _ _ H Fin). split; [exact A|]. split; [lia|reflexivity].
        * eexists. split; [reflexivity|]. apply rel_set_iter; [exact H|]. simpl. auto.
      + destruct R as (A & B). rewrite B.
        eexists. split; [reflexivity|]. apply rel_set_iter; [exact H|]. simpl. auto.
    - unfold live_iter. pose proof (iter_at_rel s l n H) as R.
      unfold advance, foreach_turn.
      destruct (iter_at K V s n) as [it|] eqn:EI;
        destruct (nth_error (cursors K V l) n) as [[[p|]|]|] eqn:EC; try contradiction; simpl; eauto.
      + destruct R as (A & B & C). rewrite C.
        rewrite seek_alive, <- (r_list _ _ H).
        destruct (find (geq p) (elist K V s)) as [e|] eqn:F; simpl.
        * destruct (find_in_geq _ _ _ F) as [Fin Fp].
          rewrite (deref_in _ _ (rel_sorted _ _ H) Fin).
          rewrite (next_of_spec _ _ (rel_sorted _ _ H) Fin).
          eexists. split; [reflexivity|]. apply rel_set_iter; [exact H|]. simpl.
          pose proof (rel_lt _ _ _ H Fin). split; [exact A|]. split; [lia|reflexivity].
        * eexists. split; [reflexivity|]. apply rel_set_iter; [exact H|]. simpl. auto.
      + destruct R as (A & B). rewrite B.
        eexists. split; [reflexivity|]. apply rel_set_iter; [exact H|]. simpl. auto.
    - eexists. split; [reflexivity|]. apply rel_set_iter; [exact H|]. simpl. auto.
  Qed.

  Lemma run_rel ops s l :
    Rel s l -> Forall (quiet K V) ops ->
    exists s', run K V hkey keq s ops = Some (s', snd (srun K V keq l ops)) /\
               Rel s' (fst (srun K V keq l ops)).
  Proof.
    revert s l. induction ops as [|o ops IH]; intros s l H Q; simpl; [eauto|].
    inversion Q as [|? ? Q1 Q2]; subst.
    destruct (step_rel s l o H Q1) as (s1 & E1 & R1). rewrite E1.
    destruct (sstep K V keq l o) as [l1 x1] eqn:ES. simpl in *.
    destruct (IH s1 l1 R1 Q2) as (s2 & E2 & R2). rewrite E2.
    destruct (srun K V keq l1 ops) as [l2 xs]. simpl in *. eauto.
  Qed.

  Theorem map_iteration_refines ops :
    Forall (quiet K V) ops ->
    exists s, run K V hkey keq (mo_init K V) ops
              = Some (s, snd (srun K V keq (lo_init K V) ops)).
  Proof.
    intros Q. destruct (run_rel ops _ _ rel_init Q) as (s & E & _). eauto.
  Qed.
End P.
