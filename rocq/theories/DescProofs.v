(** Proofs about descriptors and the functions of Object. *)
From Coq Require Import List ZArith Bool Lia Ascii String.
From Verif Require Import MethModel MethSpec MethProofs DescModel DescSpec.
Import ListNotations.
Local Open Scope Z_scope.

Section S.
Variable w : dworld.

(** *** Descriptors *)
Definition put_opt (f : field) (x : option val) (c : cdesc) : cdesc :=
  match x with Some v => put w f v c | None => c end.
Lemma field_spec : forall A o f c (k : cdesc -> M (DW w) A) (k' : option val -> M (DW w) A),
  (forall x, k (put_opt f x c) == k' x) -> bind (read_field w o f c) k == bind (s_field w o f) k'.
Proof.
  intros A o f c k k' H s. unfold read_field, s_field, bind, ret.
  destruct (d_has_field w o f s) as [s1 [[|]|e| |]]; try reflexivity; [|apply (H None)].
  destruct (d_field w o f s1) as [s2 [v|e| |]]; try reflexivity. apply (H (Some v)).
Qed.
Lemma function_spec : forall A o f c (k : cdesc -> M (DW w) A) (k' : option val -> M (DW w) A),
  (forall x, k (put_opt f x c) == k' x) ->
  bind (read_function w o f c) k == (x <- s_field w o f ;; s_function w x ;;; k' x).
Proof.
  intros A o f c k k' H s. unfold read_function, s_field, s_function, bind, ret, throw.
  destruct (d_has_field w o f s) as [s1 [[|]|e| |]]; try reflexivity; [|apply (H None)].
  destruct (d_field w o f s1) as [s2 [v|e| |]]; try reflexivity.
  destruct (d_callable w v); cbn [negb andb]; [apply (H (Some v))|].
  destruct v; cbn [is_undef negb]; try reflexivity. apply (H (Some Undef)).
Qed.
Definition final (c : cdesc) : M (DW w) cdesc :=
  if (has_get c || has_set c) && (has_value c || has_writable c) then throw TypeError else ret c.
Lemma final_spec : forall e cf v wr g st c0, has_get c0 = false -> has_set c0 = false ->
  has_value c0 = false -> has_writable c0 = false -> has_enumerable c0 = false -> has_configurable c0 = false ->
  (c <- final (put_opt FSet st (put_opt FGet g (put_opt FWritable wr (put_opt FValue v (put_opt FConfigurable cf (put_opt FEnumerable e c0)))))) ;;
   ret (seen c)) ==
  match g, st, v, wr with
  | None, None, _, _ | _, _, None, None => ret (mkD v (truth w wr) g st (truth w e) (truth w cf))
  | _, _, _, _ => throw TypeError
  end.
Proof.
  intros e cf v wr g st [he e0 hc c1 hv v0 hw w0 hg g0 hs s0] H1 H2 H3 H4 H5 H6 s. cbn in H1, H2, H3, H4, H5, H6. subst.
  destruct e, cf, v, wr, g, st; reflexivity.
Qed.
Lemma is_object_ref : forall v, is_object v = true -> exists x, v = Ref x.
Proof. intros v H. destruct v; try discriminate. eexists; reflexivity. Qed.
Lemma to_pd_ret : forall o c, (c' <- to_pd w o c ;; ret (seen c')) == s_to_pd w o.
Proof.
  intros o c. unfold to_pd. destruct (is_object o) eqn:O; cbn [negb]; [|intro s; destruct o; try reflexivity; discriminate].
  destruct (is_object_ref o O) as [x ->]. unfold s_to_pd.
  eapply eqm_trans; [apply bind_assoc|]. apply field_spec. intros e.
  eapply eqm_trans; [apply bind_assoc|]. apply field_spec. intros cf.
  eapply eqm_trans; [apply bind_assoc|]. apply field_spec. intros v.
  eapply eqm_trans; [apply bind_assoc|]. apply field_spec. intros wr.
  eapply eqm_trans; [apply bind_assoc|]. apply function_spec. intros g.
  eapply eqm_trans; [apply bind_assoc|]. apply function_spec. intros st.
  apply final_spec; reflexivity.
Qed.
Lemma to_pd_spec : forall A o c (k : desc -> M (DW w) A),
  (c' <- to_pd w o c ;; k (seen c')) == bind (s_to_pd w o) k.
Proof.
  intros A o c k s. rewrite (bind_at (s_to_pd w o)), <- (to_pd_ret o c s). unfold bind, ret.
  destruct (to_pd w o c s) as [s1 [a|e| |]]; reflexivity.
Qed.
(** with the structure of the code still in use *)
Lemma to_pd_keep : forall A o c (k : cdesc -> desc -> M (DW w) A) (k' : desc -> M (DW w) A),
  (forall c d, k c d == k' d) -> (c' <- to_pd w o c ;; k c' (seen c')) == bind (s_to_pd w o) k'.
Proof.
  intros A o c k k' H. eapply eqm_trans; [|apply (to_pd_spec A o c k')]. apply bind_same. intros a. apply H.
Qed.
Lemma from_pd_spec : forall d c, from_pd (load d c) = s_from_pd d.
Proof. intros [v wr g st e cf] c. destruct v, wr, g, st, e, cf; reflexivity. Qed.
Lemma seen_load : forall d c, seen (load d c) = d.
Proof. intros [v wr g st e cf] c. destruct v, wr, g, st, e, cf; reflexivity. Qed.

Lemma define_property_spec : forall o p attrs, define_property w o p attrs == s_define_property w o p attrs.
Proof.
  intros o p attrs. unfold define_property. destruct (is_object o) eqn:O; cbn [negb]; [|intro s; destruct o; try reflexivity; discriminate].
  destruct (is_object_ref o O) as [x ->]. unfold s_define_property. apply bind_same. intros k.
  apply (to_pd_spec _ attrs fresh (fun d => s_define w (Ref x) k d ;;; ret (Ref x))).
Qed.

(** *** Keys, values, entries *)
Lemma enumerable_step : forall A o k (m : M (DW w) A) (n : M (DW w) A) t,
  (forall d, is_enumerable d = true -> t d == m) ->
  (forall d, is_enumerable d = false -> t d == n) ->
  (r <- d_own w o k ;; match r with Some d => t d | None => n end) ==
  (e <- s_enumerable w o k ;; if e then m else n).
Proof.
  intros A o k m n t H1 H2 s. unfold s_enumerable, bind, ret.
  destruct (d_own w o k s) as [s1 [[d|]|e| |]]; try reflexivity.
  destruct (is_enumerable d) eqn:E.
  - rewrite (H1 d E). unfold is_enumerable in E. destruct (d_enumerable d) as [[|]|]; try discriminate; reflexivity.
  - rewrite (H2 d E). unfold is_enumerable in E. destruct (d_enumerable d) as [[|]|]; try discriminate; reflexivity.
Qed.
Lemma collect_spec : forall f o keys a,
  collect w f o keys a == (l <- s_items w f o keys ;; ret (a ++ l)).
Proof.
  intros f o keys. induction keys as [|k keys IH]; intros a.
  - intro s. cbn. unfold bind, ret. rewrite app_nil_r. reflexivity.
  - destruct k as [x|n]; cbn [collect is_string negb s_items]; [|apply IH].
    eapply eqm_trans; [apply (enumerable_step _ o (PStr x)
       (i <- s_item w f o (PStr x) ;; collect w f o keys (a ++ [i])) (collect w f o keys a))|].
    + intros d E. rewrite E. apply eqm_refl.
    + intros d E. rewrite E. apply eqm_refl.
    + apply eqm_sym. eapply eqm_trans; [apply bind_assoc|]. apply bind_same. intros [|]; [|apply eqm_sym, IH].
      eapply eqm_trans; [apply bind_assoc|]. apply bind_same. intros i. apply eqm_sym.
      eapply eqm_trans; [apply IH|]. apply eqm_sym. eapply eqm_trans; [apply bind_assoc|]. apply bind_same.
      intros l s. unfold bind, ret. rewrite <- app_assoc. reflexivity.
Qed.
Lemma own_properties_spec : forall f v, own_properties w f v == s_own_properties w f v.
Proof.
  intros f v. apply bind_same. intros o. apply bind_same. intros keys.
  eapply eqm_trans; [apply collect_spec|]. apply bind_ret_r.
Qed.
Lemma names_spec : forall (strings : bool) keys,
  filter (fun k => if strings then is_string k else negb (is_string k)) keys = s_names strings keys.
Proof.
  intros strings keys. induction keys as [|[x|n] keys IH]; [reflexivity| |]; cbn; destruct strings; cbn; rewrite IH; reflexivity.
Qed.
Lemma own_keys_spec : forall strings v, own_keys w strings v == s_own_keys w strings v.
Proof.
  intros strings v. apply bind_same. intros o. apply bind_same. intros keys. rewrite names_spec. apply eqm_refl.
Qed.

(** *** assign *)
Lemma assign_keys_spec : forall dst from keys, assign_loop w dst from keys == s_assign_keys w dst from keys.
Proof.
  intros dst from keys. induction keys as [|k keys IH]; [apply eqm_refl|]. cbn [assign_loop s_assign_keys].
  eapply eqm_trans; [apply (enumerable_step _ from k
     (v <- d_get w from k ;; ok <- d_set w dst k v ;; if ok then assign_loop w dst from keys else throw TypeError)
     (assign_loop w dst from keys))|].
  - intros d E. rewrite E. apply eqm_refl.
  - intros d E. rewrite E. apply eqm_refl.
  - apply bind_same. intros [|].
    + apply eqm_sym. eapply eqm_trans; [apply bind_assoc|]. apply bind_same. intros v.
      eapply eqm_trans; [apply bind_assoc|]. apply bind_same. intros [|]; [apply eqm_sym, IH|apply eqm_refl].
    + exact IH.
Qed.
Lemma assign_all_spec : forall dst srcs, assign_all w dst srcs == s_assign_all w dst srcs.
Proof.
  intros dst srcs. induction srcs as [|v srcs IH]; [apply eqm_refl|]. cbn [assign_all].
  assert (G : ((from <- d_object w v ;; keys <- d_keys w from ;; assign_loop w dst from keys) ;;; assign_all w dst srcs) ==
              (from <- d_object w v ;; keys <- d_keys w from ;; s_assign_keys w dst from keys ;;; s_assign_all w dst srcs)).
  { eapply eqm_trans; [apply bind_assoc|]. apply bind_same. intros from.
    eapply eqm_trans; [apply bind_assoc|]. apply bind_same. intros keys.
    apply bind_ext; [apply assign_keys_spec|]. intros _. exact IH. }
  unfold assign_one. destruct v; cbn [is_undef is_null orb s_assign_all]; try exact G; intro s; unfold bind, ret; apply IH.
Qed.
Lemma assign_spec : forall t srcs, assign w t srcs == s_assign w t srcs.
Proof. intros t srcs. apply bind_same. intros to. apply bind_ext; [apply assign_all_spec|intros; apply eqm_refl]. Qed.

(** *** getOwnPropertyDescriptor(s) *)
Lemma get_descriptor_spec : forall o p, get_descriptor w o p == s_get_descriptor w o p.
Proof.
  intros o p. apply bind_same. intros obj. apply bind_same. intros k. apply bind_same. intros [d|]; [|apply eqm_refl].
  rewrite from_pd_spec. apply eqm_refl.
Qed.
Lemma descriptors_spec : forall o keys pd rv,
  descriptors_loop w o keys pd rv == (l <- s_descriptors w o keys ;; ret (rv ++ l)).
Proof.
  intros o keys. induction keys as [|k keys IH]; intros pd rv.
  - intro s. cbn. unfold bind, ret. rewrite app_nil_r. reflexivity.
  - cbn [descriptors_loop s_descriptors]. apply eqm_sym. eapply eqm_trans; [apply bind_assoc|]. apply bind_same. intros [d|].
    + eapply eqm_trans; [apply bind_assoc|]. apply eqm_sym. eapply eqm_trans; [apply IH|]. apply bind_same.
      intros l s. unfold bind, ret. rewrite from_pd_spec, <- app_assoc. reflexivity.
    + eapply eqm_trans; [apply bind_assoc|]. apply eqm_sym. eapply eqm_trans; [apply IH|]. apply bind_same.
      intros l s. reflexivity.
Qed.
Lemma get_descriptors_spec : forall v, get_descriptors w v == s_get_descriptors w v.
Proof.
  intros v. apply bind_same. intros o. apply bind_same. intros keys.
  eapply eqm_trans; [apply descriptors_spec|]. apply bind_ret_r.
Qed.

(** *** defineProperties *)
(** the property is there and reading it does not fail *)
Definition found (o : val) (k : pkey) : Prop := forall s, exists s' d, d_own w o k s = (s', Ok (Some d)).
Lemma found_flag : forall o k pd s, found o k -> exists s1 b,
  on_err w (own_flag w o k pd) (left w pd) s = (s1, Ok b) /\ s_enumerable w o k s = (s1, Ok b).
Proof.
  intros o k pd s F. destruct (F s) as [s1 [d E]]. exists s1, (is_enumerable d).
  unfold on_err, own_flag, s_enumerable, bind, ret, is_enumerable. rewrite E.
  destruct (d_enumerable d) as [[|]|]; split; reflexivity.
Qed.
Lemma define_each_spec : forall o p keys pd npd, (forall k, In k keys -> found p k) ->
  define_loop w o p keys pd npd == s_define_each w o p keys.
Proof.
  intros o p keys. induction keys as [|k keys IH]; intros pd npd F; [apply eqm_refl|].
  assert (F' : forall k, In k keys -> found p k) by (intros x I; apply F; right; exact I).
  cbn [define_loop s_define_each]. intro s.
  destruct (found_flag p k pd s (F k (or_introl eq_refl))) as [s1 [b [E1 E2]]].
  rewrite (bind_at (on_err w _ _)), E1, (bind_at (s_enumerable w p k)), E2. destruct b.
  - cut ((v <- d_get w p k ;; npd0 <- to_pd w v npd ;; define_or_throw w o k (seen npd0) ;;; define_loop w o p keys true npd0) ==
         (v <- d_get w p k ;; d0 <- s_to_pd w v ;; s_define w o k d0 ;;; s_define_each w o p keys)).
    { intros X. apply X. }
    apply bind_same. intros v.
    apply (to_pd_keep _ v npd (fun c d => define_or_throw w o k d ;;; define_loop w o p keys true c)
       (fun d => s_define w o k d ;;; s_define_each w o p keys)).
    intros c' d'. apply bind_same. intros _. apply IH. exact F'.
  - apply IH. exact F'.
Qed.
(** reading does not depend on the state and does not change it *)
Definition plain (p : val) (k : pkey) : Prop :=
  exists d v d', (forall s, d_own w p k s = (s, Ok (Some d))) /\ (forall s, d_get w p k s = (s, Ok v)) /\
                 (forall s, s_to_pd w v s = (s, Ok d')).
Lemma plain_found : forall p k, plain p k -> found p k.
Proof. intros p k [d [v [d' [H _]]]] s. exists s, d. apply H. Qed.
Lemma plain_read : forall p keys, (forall k, In k keys -> plain p k) ->
  exists l, forall s, s_read w p keys s = (s, Ok l) /\ (forall o, s_define_each w o p keys == s_define_all w o l).
Proof.
  intros p keys. induction keys as [|k keys IH]; intros P.
  - exists []. intros s. split; [reflexivity|intros; apply eqm_refl].
  - destruct IH as [l L]; [intros x I; apply P; right; exact I|].
    destruct (P k (or_introl eq_refl)) as [d [v [d' [H1 [H2 H3]]]]].
    set (e := match d_enumerable d with Some b => b | None => false end).
    assert (E : forall s, s_enumerable w p k s = (s, Ok e)) by (intros s; unfold s_enumerable; rewrite bind_at, H1; reflexivity).
    exists (if e then (k, d') :: l else l). intros s. split.
    + cbn [s_read]. rewrite bind_at, E. destruct e; [|apply L].
      rewrite bind_at, H2, bind_at, H3, bind_at. destruct (L s) as [L1 _]. rewrite L1. reflexivity.
    + intros o s1. cbn [s_define_each]. rewrite bind_at, E. destruct e; [|destruct (L s1) as [_ L2]; apply L2].
      rewrite bind_at, H2, bind_at, H3. cbn [s_define_all]. apply bind_same. intros _. destruct (L s1) as [_ L2]. apply L2.
Qed.
Lemma define_plain : forall o props,
  (forall s s1 p s2 keys k, d_object w props s = (s1, Ok p) -> d_keys w p s1 = (s2, Ok keys) -> In k keys -> plain p k) ->
  object_define_properties w o props == s_define_properties w o props.
Proof.
  intros o props P s. unfold object_define_properties.
  destruct (is_object o) eqn:O; cbn [negb]; [|destruct o; try reflexivity; discriminate].
  destruct (is_object_ref o O) as [x ->]. unfold s_define_properties, define_properties.
  rewrite (bind_assoc (d_object w props) _ (fun _ => ret (Ref x)) s).
  rewrite !(bind_at (d_object w props)). destruct (d_object w props s) as [s1 [p|e| |]] eqn:E1; try reflexivity.
  rewrite (bind_assoc (d_keys w p) _ (fun _ => ret (Ref x)) s1).
  rewrite !(bind_at (d_keys w p)). destruct (d_keys w p s1) as [s2 [keys|e| |]] eqn:E2; try reflexivity.
  assert (Q : forall k, In k keys -> plain p k) by (intros k I; exact (P s s1 p s2 keys k E1 E2 I)).
  destruct (plain_read p keys Q) as [l L]. destruct (L s2) as [L1 L2].
  rewrite (bind_at (s_read w p keys)), L1.
  apply bind_ext; [|intros; apply eqm_refl].
  eapply eqm_trans; [apply define_each_spec; intros k I; apply plain_found, Q, I|apply L2].
Qed.
Lemma define_actual : forall o props,
  (forall s s1 p s2 keys k, d_object w props s = (s1, Ok p) -> d_keys w p s1 = (s2, Ok keys) -> In k keys -> found p k) ->
  define_properties w o props ==
    (p <- d_object w props ;; keys <- d_keys w p ;; s_define_each w o p keys).
Proof.
  intros o props P s. unfold define_properties. rewrite !bind_at.
  destruct (d_object w props s) as [s1 [p|e| |]] eqn:E1; try reflexivity. rewrite !bind_at.
  destruct (d_keys w p s1) as [s2 [keys|e| |]] eqn:E2; try reflexivity.
  apply define_each_spec. intros k I. exact (P s s1 p s2 keys k E1 E2 I).
Qed.

(** *** toString *)
Lemma until_zero_none : forall l, ~ In 0 l -> until_zero l = l.
Proof.
  induction l as [|c l IH]; intros H; [reflexivity|]. cbn [until_zero].
  destruct (Z.eqb_spec c 0) as [->|C]; [destruct H; left; reflexivity|]. rewrite IH; [reflexivity|]. intros I. apply H. right; exact I.
Qed.
Lemma to_string_spec : forall this,
  (forall s s' o t, d_tag w o s = (s', Ok (Str t)) -> ~ In 0 t) ->
  to_string w this == s_to_string w this.
Proof.
  intros this H.
  assert (G : (o <- d_object w this ;; a <- d_is_array w o ;;
    t <- d_tag w o ;; ret (tag_text (match t with Str s => s | _ => if a then chars "Array"
               else match d_kind w o with
                    | KArguments => chars "Arguments"
                    | k => if d_callable w o then chars "Function"
                           else match k with
                                | KBoolean => chars "Boolean" | KNumber => chars "Number" | KString => chars "String"
                                | KError => chars "Error" | KRegExp => chars "RegExp" | KDate => chars "Date"
                                | _ => chars "Object"
                                end
                    end end))) ==
    (o <- d_object w this ;; a <- d_is_array w o ;; t <- d_tag w o ;;
         ret (s_text (match t with Str s => s | _ => chars (s_builtin w a o) end)))).
  { apply bind_same. intros o. apply bind_same. intros a. apply (bind_post (fun t => forall x, t = Str x -> ~ In 0 x)).
    - intros s s' t E x ->. exact (H _ _ _ _ E).
    - intros t T. assert (B : forall t', until_zero t' = t' -> tag_text t' = s_text t') by (intros t' E; unfold tag_text; rewrite E; reflexivity).
      destruct t as [| | | |x|]; try (unfold s_builtin; destruct a; [apply eqm_refl|]; destruct (d_kind w o), (d_callable w o); apply eqm_refl).
      rewrite B; [apply eqm_refl|]. apply until_zero_none, T. reflexivity. }
  destruct this; cbn [to_string is_undef is_null s_to_string]; try exact G; apply eqm_refl.
Qed.
End S.
