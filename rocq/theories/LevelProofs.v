From Coq Require Import ZArith List Bool Lia Sorting.Sorted.
Import ListNotations.
From Verif Require Import StrModel StoreModel StoreSpec StoreProofs ObjModel ObjSpec ObjProofs ArrProofs HeapProofs.
Local Open Scope Z_scope.

Lemma desc_full : forall p, desc_of p = full (view p).
Proof. intro p. unfold desc_of, full, view. destruct (acc p); reflexivity. Qed.
Lemma full_inj : forall a b, full a = full b -> a = b.
Proof. intros [v w e c|g s e c] [v' w' e' c'|g' s' e' c'] H; cbn in H; try discriminate; injection H; intros; subst; reflexivity. Qed.
Lemma own_look : forall o k a, base o -> valid_key k -> (own o k a <-> exists p, look o k = Some p /\ view p = a).
Proof.
  intros o k a B V. unfold own, get_own. rewrite (o_lookup_spec o k B V). cbn [sbind]. destruct (look o k) as [p|]; cbn [option_map]; split.
  - intro H. assert (E : desc_of p = full a) by congruence. rewrite desc_full in E. exists p. split; [reflexivity | apply full_inj; exact E].
  - intros (q & E & <-). injection E as <-. rewrite desc_full. reflexivity.
  - discriminate.
  - intros (q & E & _). discriminate.
Qed.
Lemma lacks_look : forall o k, base o -> valid_key k -> (lacks o k <-> look o k = None).
Proof.
  intros o k B V. unfold lacks, get_own. rewrite (o_lookup_spec o k B V). cbn [sbind]. destruct (look o k); cbn [option_map]; split; congruence.
Qed.

(** redefining an existing property *)
Lemma existing_define : forall o k d p, OInv o -> kind o <> Exotic -> valid_key k -> wf_desc d -> d_val d = None -> look o k = Some p -> ext o = false ->
  exists o', o_define o k d None = SOk (o', res_of (fst (pdefine (ext o) d (Some p)))) /\ upd o o' k (snd (pdefine (ext o) d (Some p))).
Proof.
  intros o k d p OI K V W DV L X. pose proof (oi_base o OI) as B. destruct (ord_define_spec o k d B V) as [(_ & _ & N & _) | (o' & E & U)]; [congruence|].
  rewrite L in E, U. exists o'. split; [|exact U]. unfold o_define. rewrite E. cbn [sbind fst snd].
  destruct (kind o) eqn:KO; [reflexivity | | contradiction].
  destruct k as [i|n].
  - destruct (oi_arr o OI KO) as (lp & n & LL & LP & IX). unfold array_set_item. rewrite (array_len_spec o lp n B LL LP). cbn [sbind].
    rewrite (proj2 (Z.leb_gt n i)) by (apply (IX i p L)). cbn [andb]. rewrite E. cbn [sbind fst snd]. destruct (fst (pdefine (ext o) d (Some p))) eqn:F; reflexivity.
  - destruct (nkey_eqb_spec n length_key) as [-> | N]; [|reflexivity]. unfold array_set_length. rewrite DV, E. reflexivity.
Qed.
Lemma lock_pdefine : forall e w p, wfp p -> (w = None \/ (w = Some false /\ acc p = false)) ->
  exists q, pdefine e (conf_false w) (Some p) = (true, Some q) /\ view q = locked (match w with Some _ => true | None => false end) (view p).
Proof.
  intros e w p WP HW. assert (W : wf_desc (conf_false w)) by (left; split; reflexivity).
  pose proof (pdefine_ecma e (conf_false w) (Some p) W ltac:(intros q H; injection H as <-; exact WP)) as E.
  assert (KA : w = None \/ (w = Some false /\ exists v w0 e0 c0, view p = AData v w0 e0 c0)).
  { destruct HW as [-> | [-> A]]; [left; reflexivity | right]. split; [reflexivity|]. unfold view. rewrite A. eauto. }
  assert (NR : ~ rejected (conf_false w) (view p)).
  { clear E. generalize dependent (view p). intros vp KA R.
    destruct R as [a C D|a e0 C D N|v w0 e0 D|g s e0 D|g s e0 x D N|g s e0 x D N|v e0 D|v e0 x D N]; cbn in D; try discriminate.
    - destruct D as [D | D]; apply D; reflexivity.
    - destruct D as [D | D]; [apply D; reflexivity|]. destruct KA as [-> | [-> (v & w0 & e1 & c0 & KA)]]; [apply D; reflexivity | discriminate].
    - destruct KA as [-> | [-> _]]; discriminate. }
  destruct (pdefine e (conf_false w) (Some p)) as [b c]. cbn [fst snd option_map] in E. inversion E as [| |a R|a q0 R C E1 E2 E3]; subst; [contradiction|].
  destruct c as [q|]; [|discriminate]. injection E3 as ->. exists q. split; [reflexivity|].
  clear E NR R WP HW. generalize dependent (view q). generalize dependent (view p). intros vp KA vq C.
  destruct C as [v w0 e0 c0 D|g s e0 c0 D|v w0 e0 c0 D|g s e0 c0 D].
  - exfalso. destruct D as [D | D]; apply D; reflexivity.
  - exfalso. destruct D as [D | D]; [apply D; reflexivity|]. destruct KA as [-> | [-> (v & w0 & e1 & c1 & KA)]]; [apply D; reflexivity | discriminate].
  - destruct KA as [-> | [-> _]]; reflexivity.
  - destruct KA as [-> | [-> (v & w0 & e1 & c1 & KA)]]; [reflexivity | discriminate].
Qed.

Lemma level_key_spec : forall fr o k p, OInv o -> kind o <> Exotic -> ext o = false -> look o k = Some p ->
  exists o' q, level_key fr o k = SOk (o', true) /\ OInv o' /\ upd o o' k (Some q) /\ view q = locked fr (view p).
Proof.
  intros fr o k p OI K X L. pose proof (oi_base o OI) as B. assert (V : valid_key k) by (apply (look_valid o); [exact B | congruence]).
  pose proof (b_props o B k p L) as WP.
  assert (GO : get_own o k = SOk (Some (desc_of p))) by (unfold get_own; rewrite (o_lookup_spec o k B V), L; reflexivity).
  assert (DEF : forall w, (w = None \/ (w = Some false /\ acc p = false)) ->
     exists o' q, (do x <- o_define o k (conf_false w) None; SOk (fst x, match snd x with RTrue => true | _ => false end)) = SOk (o', true) /\
       OInv o' /\ upd o o' k (Some q) /\ view q = locked (match w with Some _ => true | None => false end) (view p)).
  { intros w HW. assert (W : wf_desc (conf_false w)) by (left; split; reflexivity).
    destruct (existing_define o k (conf_false w) p OI K V W eq_refl L X) as (o' & E & U). destruct (lock_pdefine (ext o) w p WP HW) as (q & PE & VQ).
    rewrite PE in E, U. cbn [fst snd res_of] in E, U. exists o', q. rewrite E. cbn [sbind fst snd]. split; [reflexivity|]. split; [|split; [exact U | exact VQ]].
    destruct (o_define_good o k (conf_false w) None OI V W) as [(E2 & _) | (o2 & r2 & E2 & G)]; rewrite E in E2; [discriminate|].
    injection E2 as <- _. apply G. }
  unfold level_key. destruct fr; [|apply DEF; left; reflexivity]. rewrite GO. cbn [sbind].
  assert (IA : is_acc (desc_of p) = acc p) by (unfold desc_of; destruct (acc p); reflexivity). rewrite IA.
  destruct (acc p) eqn:A.
  - destruct (DEF None (or_introl eq_refl)) as (o' & q & E1 & E2 & E3 & E4). exists o', q. split; [exact E1|]. split; [exact E2|]. split; [exact E3|].
    rewrite E4. unfold view. rewrite A. reflexivity.
  - destruct (DEF (Some false) (or_intror (conj eq_refl eq_refl))) as (o' & q & E1 & E2 & E3 & E4). exists o', q. auto.
Qed.
Lemma locked_idem : forall fr a, locked fr (locked fr a) = locked fr a.
Proof. intros [] [v w e c|g s e c]; reflexivity. Qed.

Lemma level_keys_spec : forall fr ks o, OInv o -> kind o <> Exotic -> ext o = false -> (forall k, In k ks -> look o k <> None) ->
  exists o', level_keys fr o ks = SOk (o', true) /\ OInv o' /\ kind o' = kind o /\ ext o' = false /\ proto o' = proto o /\ map fst (named o') = map fst (named o) /\
    forall k, match look o k with
              | None => look o' k = None
              | Some p => exists q, look o' k = Some q /\ (view q = locked fr (view p) \/ (~ In k ks /\ q = p))
              end.
Proof.
  intros fr. induction ks as [|k ks IH]; intros o OI K X IN.
  - exists o. repeat (split; [assumption || reflexivity|]). intro j. destruct (look o j) as [p|]; [|reflexivity]. exists p. split; [reflexivity | right; split; [intros [] | reflexivity]].
  - destruct (look o k) as [p|] eqn:L; [|exfalso; apply (IN k); [left; reflexivity | exact L]].
    destruct (level_key_spec fr o k p OI K X L) as (o1 & q & E1 & OI1 & U & VQ). cbn [level_keys]. rewrite E1. cbn [sbind fst snd].
    destruct (IH o1 OI1) as (o' & E & OI' & K' & X' & P' & N' & LK).
    + rewrite (u_kind _ _ _ _ U). exact K.
    + rewrite (u_ext _ _ _ _ U). exact X.
    + intros j Hj. rewrite (u_look _ _ _ _ U). destruct (key_eqb j k); [discriminate | apply IN; right; exact Hj].
    + exists o'. split; [exact E|]. split; [exact OI'|]. split; [rewrite K'; apply U|]. split; [exact X'|]. split; [rewrite P'; apply U|]. split.
      { rewrite N', (u_names _ _ _ _ U). unfold names_after. destruct k as [i|n]; [reflexivity|]. cbn [look] in L. rewrite L. reflexivity. }
      intro j. specialize (LK j). rewrite (u_look _ _ _ _ U) in LK. destruct (key_eqb_spec j k) as [EJ | N].
      * subst j. rewrite L. destruct LK as (q2 & L2 & H2). exists q2. split; [exact L2|]. left. destruct H2 as [H2 | [_ ->]]; [rewrite H2, VQ; apply locked_idem | exact VQ].
      * destruct (look o j) as [pj|]; [|exact LK]. destruct LK as (q2 & L2 & H2). exists q2. split; [exact L2|]. destruct H2 as [H2 | [NI ->]]; [left; exact H2 | right].
        split; [|reflexivity]. intros [E2 | E2]; [congruence | contradiction].
Qed.
(** keys of an object exist without a ghost *)
Lemma own_keys_all : forall o, base o -> exists ks, own_keys o = SOk ks /\ NoDup ks /\ (forall k, In k ks <-> look o k <> None).
Proof.
  intros o B. assert (G : ghost (map KIdx (map fst (lst (its (arr o)))) ++ map KName (map fst (named o))) o).
  { set (t := lst (its (arr o))). pose proof (inv_sorted _ (b_arr o B)) as ST. fold t in ST. constructor.
    - intro k. rewrite in_app_iff, !in_map_iff. destruct k as [i|n].
      + cbn [look]. fold t. split.
        * intros [(a & E & H) | (a & E & H)]; [|discriminate]. injection E as ->. apply in_map_iff in H. destruct H as ((j & q) & E & H). cbn in E. subst j. rewrite (in_find t i q ST H). discriminate.
        * intro H. destruct (t_find t i) as [q|] eqn:F; [|contradiction]. left. exists i. split; [reflexivity|]. apply in_map_iff. exists (i, q). split; [reflexivity | apply find_in; exact F].
      + cbn [look]. rewrite n_find_in. split; [intros [(a & E & H) | (a & E & H)]; [discriminate|]; injection E as ->; exact H | intro H; right; exists n; auto].
    - assert (APP : forall (l1 l2 : list key), NoDup l1 -> NoDup l2 -> (forall x, In x l1 -> ~ In x l2) -> NoDup (l1 ++ l2)).
      { clear. intros l1 l2 H1 H2 D. induction H1 as [|x l1 H H1 IH]; [exact H2|]. cbn. constructor.
        - rewrite in_app_iff. intros [H3 | H3]; [contradiction | apply (D x); [left; reflexivity | exact H3]].
        - apply IH. intros y Hy. apply D. right. exact Hy. }
      apply APP.
      + apply FinFun.Injective_map_NoDup; [intros a b E; congruence|]. clear - ST. induction ST as [|e t S0 IH F]; cbn [map]; constructor; [|exact IH].
        intro H. apply in_map_iff in H. destruct H as (x & E & H). rewrite Forall_forall in F. specialize (F x H). lia.
      + apply FinFun.Injective_map_NoDup; [intros a b E; congruence | apply (b_names o B)].
      + intros x H1 H2. apply in_map_iff in H1, H2. destruct H1 as (a & <- & _), H2 as (b & E & _). discriminate.
    - rewrite flat_map_app. change (flat_map nm (map KIdx (map fst t)) ++ flat_map nm (map KName (map fst (named o))) = map fst (named o)).
      assert (E1 : forall l, flat_map nm (map KIdx l) = []) by (induction l; [reflexivity | exact IHl]). assert (E2 : forall l, flat_map nm (map KName l) = l) by (induction l as [|n l IHl]; [reflexivity | cbn; rewrite IHl; reflexivity]).
      rewrite E1, E2. reflexivity. }
  destruct (own_keys_spec o _ B G) as (ks & E & _ & ND & IN). exists ks. auto.
Qed.

Lemma set_level_spec : forall fr o, OInv o -> kind o <> Exotic ->
  exists o', set_level fr o = SOk (o', true) /\ OInv o' /\ kind o' = kind o /\ ext o' = false /\ proto o' = proto o /\ map fst (named o') = map fst (named o) /\
    forall k, option_map view (look o' k) = option_map (fun p => locked fr (view p)) (look o k).
Proof.
  intros fr o OI K. unfold set_level. pose proof (with_ext_inv o false OI) as OI1. set (o1 := with_ext o false) in *.
  assert (L1 : forall k, look o1 k = look o k) by (intros [i|n]; reflexivity).
  destruct (own_keys_all o1 (oi_base o1 OI1)) as (ks & E & _ & IN). rewrite E. cbn [sbind].
  destruct (level_keys_spec fr ks o1 OI1 K eq_refl (fun k H => proj1 (IN k) H)) as (o' & E2 & OI' & K' & X' & P' & N' & LK).
  exists o'. split; [exact E2|]. split; [exact OI'|]. split; [exact K'|]. split; [exact X'|]. split; [exact P'|]. split; [exact N'|].
  intro k. specialize (LK k). rewrite L1 in LK. destruct (look o k) as [p|] eqn:L; cbn [option_map]; [|rewrite LK; reflexivity].
  destruct LK as (q & -> & [VQ | [NI _]]); cbn [option_map]; [rewrite VQ; reflexivity|]. exfalso. apply NI. apply IN. rewrite L1, L. discriminate.
Qed.

Lemma test_keys_spec : forall fr ks o, base o -> (forall k, In k ks -> look o k <> None) ->
  exists b, test_keys fr o ks = SOk b /\ (b = true <-> forall k p, In k ks -> look o k = Some p -> locked fr (view p) = view p).
Proof.
  intros fr. induction ks as [|k ks IH]; intros o B IN.
  - exists true. split; [reflexivity|]. split; [intros _ k p [] | reflexivity].
  - destruct (IH o B) as (b & E & H); [intros j Hj; apply IN; right; exact Hj|].
    destruct (look o k) as [p|] eqn:L; [|exfalso; apply (IN k); [left; reflexivity | exact L]].
    assert (V : valid_key k) by (apply (look_valid o); [exact B | congruence]).
    assert (GO : get_own o k = SOk (Some (desc_of p))) by (unfold get_own; rewrite (o_lookup_spec o k B V), L; reflexivity).
    cbn [test_keys]. rewrite GO. cbn [sbind].
    assert (LP : (if flag (d_cf (desc_of p)) then false else if fr && is_data (desc_of p) && flag (d_wr (desc_of p)) then false else true) = true <-> locked fr (view p) = view p).
    { rewrite desc_full. destruct (view p) as [v w e c|g s e c]; cbn; destruct c, fr; cbn; try destruct w; cbn; split; intro; congruence || (try reflexivity). }
    destruct (flag (d_cf (desc_of p))).
    { exists false. split; [reflexivity|]. split; [discriminate|]. intro HA. apply LP. apply (HA k p); [left; reflexivity | exact L]. }
    destruct (fr && is_data (desc_of p) && flag (d_wr (desc_of p))).
    { exists false. split; [reflexivity|]. split; [discriminate|]. intro HA. apply LP. apply (HA k p); [left; reflexivity | exact L]. }
    exists b. split; [exact E|]. rewrite H. split.
    + intros HA j q [<- | Hj] Lj; [rewrite L in Lj; injection Lj as <-; apply LP; reflexivity | apply (HA j q Hj Lj)].
    + intros HA j q Hj. apply HA. right. exact Hj.
Qed.
Lemma test_level_spec : forall fr o, OInv o -> exists b, test_level fr o = SOk b /\
  (b = true <-> ext o = false /\ forall k p, look o k = Some p -> locked fr (view p) = view p).
Proof.
  intros fr o OI. pose proof (oi_base o OI) as B. unfold test_level. destruct (ext o) eqn:X.
  - exists false. split; [reflexivity|]. split; [discriminate | intros [H _]; discriminate].
  - destruct (own_keys_all o B) as (ks & E & _ & IN). rewrite E. cbn [sbind]. destruct (test_keys_spec fr ks o B (fun k H => proj1 (IN k) H)) as (b & E2 & H).
    exists b. split; [exact E2|]. rewrite H. split; [intro HA; split; [reflexivity | intros k p L; apply (HA k p); [apply IN; congruence | exact L]] | intros [_ HA] k p _; apply HA].
Qed.

(** ** statements about reached heaps in observed terms *)
Lemma reached : forall ops h, Forall op_ok ops -> o_run [] ops = Done h -> HInv h.
Proof. intros ops h OK E. apply (run_hinv ops [] h empty_hinv OK E). Qed.

Theorem nonconfigurable_stable : forall ops1 h1 x o k a ops2 h2, Forall op_ok (ops1 ++ ops2) -> o_run [] ops1 = Done h1 -> nth_error h1 x = Some o ->
  valid_key k -> own o k a -> non_configurable a -> o_run h1 ops2 = Done h2 ->
  exists o2 b, nth_error h2 x = Some o2 /\ own o2 k b /\ stable a b.
Proof.
  intros ops1 h1 x o k a ops2 h2 OK E1 X V OW NC E2. apply Forall_app in OK. destruct OK as [OK1 OK2]. pose proof (reached _ _ OK1 E1) as HI1.
  destruct (run_hinv ops2 h1 h2 HI1 OK2 E2) as [HI2 EV]. destruct (EV x o X) as (o2 & X2 & EO). exists o2.
  apply own_look in OW; [|apply (hi_objs h1 HI1 x o X) | exact V]. destruct OW as (p & L & <-). apply view_nonconf in NC.
  destruct (e_stable _ _ EO k p L NC) as (q & L2 & ST). exists (view q). split; [exact X2|]. split; [|exact ST].
  apply own_look; [apply (hi_objs h2 HI2 x o2 X2) | exact V|]. exists q. auto.
Qed.
Theorem non_extensible_final : forall ops1 h1 x o ops2 h2, Forall op_ok (ops1 ++ ops2) -> o_run [] ops1 = Done h1 -> nth_error h1 x = Some o ->
  ext o = false -> o_run h1 ops2 = Done h2 ->
  exists o2, nth_error h2 x = Some o2 /\ ext o2 = false /\ proto o2 = proto o /\ (forall k, valid_key k -> lacks o k -> lacks o2 k) /\
    (forall ks, own_keys o2 = SOk ks -> exists ks1, own_keys o = SOk ks1 /\ incl ks ks1).
Proof.
  intros ops1 h1 x o ops2 h2 OK E1 X XT E2. apply Forall_app in OK. destruct OK as [OK1 OK2]. pose proof (reached _ _ OK1 E1) as HI1.
  destruct (run_hinv ops2 h1 h2 HI1 OK2 E2) as [HI2 EV]. destruct (EV x o X) as (o2 & X2 & EO). exists o2.
  pose proof (oi_base _ (hi_objs h1 HI1 x o X)) as B1. pose proof (oi_base _ (hi_objs h2 HI2 x o2 X2)) as B2.
  split; [exact X2|]. split; [apply (e_ext _ _ EO XT)|]. split; [apply (e_proto _ _ EO XT)|]. split.
  - intros k V LK. apply (lacks_look o k B1 V) in LK. apply (lacks_look o2 k B2 V). apply (e_new _ _ EO k XT LK).
  - intros ks EK. destruct (own_keys_all o B1) as (ks1 & E & _ & IN1). exists ks1. split; [exact E|]. destruct (own_keys_all o2 B2) as (ks2 & E' & _ & IN2). rewrite E' in EK. injection EK as <-.
    intros k Hk. apply IN1. apply IN2 in Hk. intro N. apply Hk. apply (e_new _ _ EO k XT N).
Qed.
Theorem prevent_works : forall h x o, nth_error h x = Some o -> kind o <> Exotic -> exists o', o_step h (Prevent x) = Done (put h x o', RTrue) /\ ext o' = false /\ proto o' = proto o /\ (forall k, get_own o' k = get_own o k).
Proof.
  intros h x o X K. exists (with_ext o false). cbn [o_step]. rewrite X. destruct (kind o); [| |contradiction]; (split; [reflexivity|]); (split; [reflexivity|]); (split; [reflexivity|]); intros [i|n]; reflexivity.
Qed.

Theorem prototypes_acyclic : forall ops h, Forall op_ok ops -> o_run [] ops = Done h ->
  (forall x, ~ reach h x x) /\ (forall op, op_ok op -> refs_ok h op -> o_step h op <> Loops).
Proof.
  intros ops h OK E. pose proof (reached _ _ OK E) as HI. split; [apply (hi_acyclic h HI)|]. intros op O R. apply loops_effect; assumption.
Qed.
Theorem cycle_refused : forall ops h x o y, Forall op_ok ops -> o_run [] ops = Done h -> nth_error h x = Some o -> kind o <> Exotic -> (y < length h)%nat ->
  y = x \/ reach h y x -> o_step h (SetProto x (Some y)) = Done (h, RFalse).
Proof.
  intros ops h x o y OK E X K Y C. pose proof (reached _ _ OK E) as HI. cbn [o_step]. unfold set_proto. rewrite X.
  assert (NE : proto_eqb (proto o) (Some y) = false).
  { destruct (proto o) as [z|] eqn:P; [|reflexivity]. cbn. destruct (Nat.eqb_spec z y) as [-> | N]; [|reflexivity]. exfalso.
    assert (ED : edge h x y) by (exists o; auto). apply (hi_acyclic h HI x). destruct C as [-> | C]; [apply reach_one; exact ED | eapply reach_step; eassumption]. }
  rewrite NE. assert (W : walk (S (S (length h))) h x (Some y) = Some (SOk true)).
  { destruct (walk (S (S (length h))) h x (Some y)) as [r|] eqn:WK.
    2: { exfalso. apply (walk_ends (S (S (length h))) h x (Some y) []) in WK; [exact WK | exact HI | constructor | intros v [] | intros z _ v [] | cbn; lia]. }
    destruct (walk_spec _ h x (Some y) r HI ltac:(intros z Hz; injection Hz as <-; exact Y) WK) as (b & -> & B). f_equal. f_equal. apply B. exists y. split; [reflexivity | exact C]. }
  rewrite W. cbn [lift bind]. destruct (kind o); [| |contradiction]; destruct (negb (ext o)); reflexivity.
Qed.
Theorem no_cycle_accepted : forall ops h x o p, Forall op_ok ops -> o_run [] ops = Done h -> nth_error h x = Some o -> kind o <> Exotic -> ext o = true ->
  (forall y, p = Some y -> (y < length h)%nat /\ y <> x /\ ~ reach h y x) ->
  exists o', o_step h (SetProto x p) = Done (put h x o', RTrue) /\ proto o' = p /\ ext o' = true /\ (forall k, get_own o' k = get_own o k).
Proof.
  intros ops h x o p OK E X K XT C. pose proof (reached _ _ OK E) as HI. cbn [o_step]. unfold set_proto. rewrite X, XT. cbn [negb].
  destruct (proto_eqb (proto o) p) eqn:PE.
  - exists o. assert (EP : proto o = p). { destruct (proto o) as [z|], p as [y|]; cbn in PE; try discriminate; [|reflexivity]. apply Nat.eqb_eq in PE. congruence. }
    assert (PS : put h x o = h).
    { clear - X. revert x X. induction h as [|a h IH]; intros [|x] X; try discriminate; cbn in *; [congruence | rewrite IH by exact X; reflexivity]. }
    rewrite PS. destruct (kind o); [| |contradiction]; auto.
  - exists (with_proto o p). assert (W : walk (S (S (length h))) h x p = Some (SOk false)).
    { destruct (walk (S (S (length h))) h x p) as [r|] eqn:WK.
      2: { exfalso. apply (walk_ends (S (S (length h))) h x p []) in WK; [exact WK | exact HI | constructor | intros v [] | intros z _ v [] | cbn; lia]. }
      destruct (walk_spec _ h x p r HI (fun y Hy => proj1 (C y Hy)) WK) as (b & -> & B). destruct b; [|reflexivity]. exfalso.
      destruct (proj1 B eq_refl) as (y & Hy & R). destruct (C y Hy) as (_ & N1 & N2). destruct R; contradiction. }
    rewrite W. cbn [lift bind]. destruct (kind o); [| |contradiction]; (split; [reflexivity|]); (split; [reflexivity|]); (split; [exact XT|]); intros [i|n]; reflexivity.
Qed.

Theorem keys_in_order : forall ops h gs x o g, Forall op_ok ops -> run_orders [] [] ops = Done (h, gs) -> nth_error h x = Some o -> nth_error gs x = Some g ->
  exists ks, own_keys o = SOk ks /\ ordered_keys g ks /\ NoDup ks /\ (forall k, valid_key k -> (In k ks <-> ~ lacks o k)).
Proof.
  intros ops h gs x o g OK E X G. destruct (run_ghosts ops [] [] h gs empty_hinv) as [HI [_ GH]]; [split; [reflexivity | intros [|y] ? ? H; discriminate] | exact OK | exact E|].
  pose proof (oi_base _ (hi_objs h HI x o X)) as B. destruct (own_keys_spec o g B (GH x o g X G)) as (ks & E1 & OR & ND & IN). exists ks. split; [exact E1|]. split; [exact OR|]. split; [exact ND|].
  intros k V. rewrite IN, (lacks_look o k B V). reflexivity.
Qed.
Theorem run_orders_total : forall ops h, o_run [] ops = Done h -> exists gs, run_orders [] [] ops = Done (h, gs).
Proof. intros ops h E. pose proof (run_orders_fst ops [] []) as R. destruct (run_orders [] [] ops) as [[h' gs']| |]; [exists gs'; congruence | congruence | congruence]. Qed.

Theorem array_length : forall ops h x o, Forall op_ok ops -> o_run [] ops = Done h -> nth_error h x = Some o -> kind o = Array ->
  exists n w e, own o (KName length_key) (AData (Num n) w e false) /\ 0 <= n <= 4294967295 /\ (forall i, valid_index i -> ~ lacks o (KIdx i) -> i < n).
Proof.
  intros ops h x o OK E X K. pose proof (reached _ _ OK E) as HI. pose proof (hi_objs h HI x o X) as OI. pose proof (oi_base o OI) as B.
  destruct (oi_arr o OI K) as (p & n & L & [A C VL R] & IX). exists n, (wr p), (en p). split; [|split; [exact R|]].
  - apply own_look; [exact B | exact Logic.I|]. exists p. split; [exact L|]. unfold view. rewrite A, VL, C. reflexivity.
  - intros i V NL. rewrite (lacks_look o (KIdx i) B V) in NL. destruct (look o (KIdx i)) as [q|] eqn:LQ; [|contradiction]. apply (IX i q LQ).
Qed.
(** length is fixed once not writable, and then bounds every later index *)
Theorem fixed_length_final : forall ops1 h1 x o n e ops2 h2, Forall op_ok (ops1 ++ ops2) -> o_run [] ops1 = Done h1 -> nth_error h1 x = Some o -> kind o = Array ->
  own o (KName length_key) (AData (Num n) false e false) -> o_run h1 ops2 = Done h2 ->
  exists o2, nth_error h2 x = Some o2 /\ own o2 (KName length_key) (AData (Num n) false e false) /\ (forall i, valid_index i -> n <= i -> lacks o2 (KIdx i)).
Proof.
  intros ops1 h1 x o n e ops2 h2 OK E1 X K OW E2. destruct (nonconfigurable_stable ops1 h1 x o (KName length_key) _ ops2 h2 OK E1 X Logic.I OW eq_refl E2) as (o2 & b & X2 & OW2 & ST).
  cbn in ST. rewrite (ST eq_refl) in OW2. exists o2. split; [exact X2|]. split; [exact OW2|].
  pose proof OK as OK'. apply Forall_app in OK'. destruct OK' as [OK1 OK2]. destruct (run_hinv ops2 h1 h2 (reached _ _ OK1 E1) OK2 E2) as [HI2 EV]. destruct (EV x o X) as (o2' & X2' & EO). rewrite X2 in X2'. injection X2' as <-.
  assert (RUN : o_run [] (ops1 ++ ops2) = Done h2) by (rewrite o_run_app, E1; exact E2).
  destruct (array_length (ops1 ++ ops2) h2 x o2 OK RUN X2) as (n2 & w2 & e2 & OW3 & R & IX); [rewrite (e_kind _ _ EO); exact K|].
  assert (n2 = n). { unfold own in OW2, OW3. rewrite OW3 in OW2. injection OW2. intros; congruence. } subst n2.
  intros i V GE. pose proof (oi_base _ (hi_objs h2 HI2 x o2 X2)) as B2. apply (lacks_look o2 (KIdx i) B2 V). destruct (look o2 (KIdx i)) eqn:L; [|reflexivity].
  exfalso. assert (NL : ~ lacks o2 (KIdx i)) by (rewrite (lacks_look o2 (KIdx i) B2 V), L; discriminate). specialize (IX i V NL). lia.
Qed.

(** exact truncation *)
Definition keep_below (o o' : obj) (b : Z) : Prop :=
  forall i, valid_index i -> get_own o' (KIdx i) = if i <? b then get_own o (KIdx i) else SOk None.
Definition may_go (o : obj) (i : Z) : Prop := forall a, own o (KIdx i) a -> ~ non_configurable a.
Theorem truncation : forall ops h x o n m e (mkro : bool), Forall op_ok ops -> o_run [] ops = Done h -> nth_error h x = Some o -> kind o = Array ->
  own o (KName length_key) (AData (Num n) true e false) -> 0 <= m < n ->
  exists o' (r : res) b,
    o_step h (Define x (KName length_key) {| d_val := Some (Num m); d_wr := if mkro then Some false else None; d_get := None; d_set := None; d_en := None; d_cf := None |} None) = Done (put h x o', r) /\
    keep_below o o' b /\ own o' (KName length_key) (AData (Num b) (negb mkro) e false) /\
    (forall nk, nk <> length_key -> get_own o' (KName nk) = get_own o (KName nk)) /\
    kind o' = Array /\ proto o' = proto o /\ ext o' = ext o /\
    ((r = RTrue /\ b = m /\ forall i, valid_index i -> m <= i -> may_go o i) \/
     (r = RFalse /\ m < b /\ valid_index (b - 1) /\ (exists a, own o (KIdx (b - 1)) a /\ non_configurable a) /\ forall i, valid_index i -> b <= i -> may_go o i)).
Proof.
  intros ops h x o n m e mkro OK E X K OW M. pose proof (reached _ _ OK E) as HI. pose proof (hi_objs h HI x o X) as OI. pose proof (oi_base o OI) as B.
  destruct (oi_arr o OI K) as (p & n' & L & LP & IX). apply own_look in OW; [|exact B | exact Logic.I]. destruct OW as (p' & L' & VP). rewrite L in L'. injection L' as <-.
  pose proof LP as [A C VL R]. unfold view in VP. rewrite A, C, VL in VP. injection VP as VN WP EP. subst n'.
  set (d := {| d_val := Some (Num m); d_wr := if mkro then Some false else None; d_get := None; d_set := None; d_en := None; d_cf := None |}).
  assert (W : wf_desc d) by (left; split; reflexivity).
  destruct (truncate_spec o d None p n m B W L LP IX eq_refl M WP eq_refl eq_refl) as (o' & E' & T).
  set (t := lst (its (arr o))) in *. exists o', (res_of (negb (is_some (blocker m t)))), (bound m t).
  assert (IT : forall i, look o (KIdx i) = t_find t i) by reflexivity.
  pose proof (tr_base _ _ _ _ _ T) as B'.
  assert (GO : forall k, valid_key k -> look o' k = look o k -> get_own o' k = get_own o k).
  { intros k V EQ. unfold get_own. rewrite (o_lookup_spec o k B V), (o_lookup_spec o' k B' V), EQ. reflexivity. }
  assert (MG : forall i, valid_index i -> (forall q, t_find t i = Some q -> cf q = true) -> may_go o i).
  { intros i V HC a OWA NC. apply own_look in OWA; [|exact B | exact V]. destruct OWA as (q & LQ & <-). apply view_nonconf in NC. rewrite (HC q LQ) in NC. discriminate. }
  split. { cbn [o_step]. rewrite X. unfold upd_obj, o_define. rewrite K. cbn [nkey_eqb]. rewrite nkey_refl. fold d. rewrite E'. reflexivity. }
  split. { intros i V. pose proof (tr_idx _ _ _ _ _ T i) as TI. fold t in TI. destruct (i <? bound m t); [apply GO; assumption|]. apply (lacks_look o' (KIdx i) B' V). exact TI. }
  split. { destruct (tr_len _ _ _ _ _ T) as (q & LQ & [A2 C2 V2 R2] & WQ & EQ). apply own_look; [exact B' | exact Logic.I|]. exists q. split; [exact LQ|]. unfold view. rewrite A2, C2, V2, EQ, EP.
    f_equal. rewrite WQ. unfold d. cbn [d_wr]. destruct mkro; reflexivity. }
  split. { intros nk N. apply GO; [exact Logic.I | apply (tr_other _ _ _ _ _ T nk N)]. }
  split; [rewrite (tr_kind _ _ _ _ _ T); exact K|]. split; [apply T|]. split; [apply T|].
  pose proof (inv_sorted _ (b_arr o B)) as ST. fold t in ST. unfold bound. destruct (blocker m t) as [b|] eqn:BL; cbn [is_some negb res_of].
  - right. destruct (blocker_some m t b ST BL) as (GE & (q & F & CF) & HI'). split; [reflexivity|]. split; [lia|]. replace (b + 1 - 1) with b by lia.
    assert (VB : valid_index b). { apply (look_valid o (KIdx b) B). rewrite IT, F. discriminate. }
    split; [exact VB|]. split.
    + exists (view q). split; [apply own_look; [exact B | exact VB | exists q; auto] | apply view_nonconf; exact CF].
    + intros i V GI. apply MG; [exact V|]. intros q2 F2. apply (HI' i q2 F2). lia.
  - left. split; [reflexivity|]. split; [reflexivity|]. intros i V GI. apply MG; [exact V|]. intros q2 F2. apply (blocker_none_conf m t BL i q2 F2 GI).
Qed.

(** defineProperty on an ordinary object is ECMA-262 10.1.6.3 *)
Theorem define_ecma : forall ops h x o k d cv, Forall op_ok ops -> o_run [] ops = Done h -> nth_error h x = Some o -> kind o = Ordinary -> valid_key k -> wf_desc d ->
  forall h' r, o_step h (Define x k d cv) = Done (h', r) ->
  exists o' before (b : bool) after, h' = put h x o' /\ r = (if b then RTrue else RFalse) /\ ecma_define (ext o) d before b after /\
    (match before with Some a => own o k a | None => lacks o k end) /\ (match after with Some a => own o' k a | None => lacks o' k end) /\
    (forall j, valid_key j -> j <> k -> get_own o' j = get_own o j) /\ ext o' = ext o /\ proto o' = proto o /\ kind o' = Ordinary.
Proof.
  intros ops h x o k d cv OK E X K V W h' r E'. pose proof (reached _ _ OK E) as HI. pose proof (hi_objs h HI x o X) as OI. pose proof (oi_base o OI) as B.
  cbn [o_step] in E'. rewrite X in E'. unfold upd_obj, o_define in E'. rewrite K in E'.
  destruct (ord_define_spec o k d B V) as [(EU & _) | (o' & EO & U)]; [rewrite EU in E'; discriminate|]. rewrite EO in E'. cbn [sbind lift bind fst snd] in E'.
  injection E' as <- <-. exists o', (option_map view (look o k)), (fst (pdefine (ext o) d (look o k))), (option_map view (snd (pdefine (ext o) d (look o k)))).
  pose proof (u_base _ _ _ _ U) as B'.
  assert (OB : forall oo c, base oo -> look oo k = c -> match option_map view c with Some a => own oo k a | None => lacks oo k end).
  { intros oo c BB LC. destruct c as [q|]; cbn; [apply own_look; [exact BB | exact V | exists q; auto] | apply lacks_look; assumption]. }
  split; [reflexivity|]. split; [destruct (fst (pdefine (ext o) d (look o k))); reflexivity|].
  split; [apply pdefine_ecma; [exact W | intros p LP; apply (b_props o B k p LP)]|].
  split; [apply OB; [exact B | reflexivity]|]. split; [apply OB; [exact B' | apply (upd_look_same _ _ _ _ U)]|]. split.
  - intros j VJ N. unfold get_own. rewrite (o_lookup_spec o j B VJ), (o_lookup_spec o' j B' VJ), (upd_look_other _ _ _ _ _ U N). reflexivity.
  - split; [apply U|]. split; [apply U|]. rewrite (u_kind _ _ _ _ U). exact K.
Qed.

(** freeze and seal *)
Theorem level_set : forall ops h x o fr, Forall op_ok ops -> o_run [] ops = Done h -> nth_error h x = Some o -> kind o <> Exotic ->
  exists o', set_level fr o = SOk (o', true) /\ ext o' = false /\ proto o' = proto o /\ own_keys o' = own_keys o /\
    (forall k a, valid_key k -> (own o' k a <-> exists b, own o k b /\ a = locked fr b)) /\ test_level fr o' = SOk true.
Proof.
  intros ops h x o fr OK E X K. pose proof (reached _ _ OK E) as HI. pose proof (hi_objs h HI x o X) as OI. pose proof (oi_base o OI) as B.
  destruct (set_level_spec fr o OI K) as (o' & E' & OI' & K' & X' & P' & N' & LK). pose proof (oi_base o' OI') as B'. exists o'.
  split; [exact E'|]. split; [exact X'|]. split; [exact P'|].
  assert (SAME : forall k, look o' k <> None <-> look o k <> None).
  { intro k. specialize (LK k). destruct (look o' k), (look o k); cbn in LK; try discriminate; split; congruence. }
  split; [|split].
  - unfold own_keys. rewrite (index_keys_spec _ (b_arr o B)), (index_keys_spec _ (b_arr o' B')). cbn [sbind]. rewrite N'.
    assert (IE : map fst (lst (its (arr o'))) = map fst (lst (its (arr o)))).
    { assert (SO : forall oo, base oo -> StronglySorted Z.lt (map fst (lst (its (arr oo))))).
      { intros oo BB. pose proof (inv_sorted _ (b_arr oo BB)) as S0. induction S0 as [|e1 t1 S1 IH1 F1]; [constructor|]. cbn [map]. constructor; [exact IH1 | apply Forall_map; exact F1]. }
      assert (SI : forall oo, base oo -> forall i, In i (map fst (lst (its (arr oo)))) <-> look oo (KIdx i) <> None).
      { intros oo BB i. rewrite in_map_iff. cbn [look]. split.
        - intros ((j & q) & EJ & HJ). cbn in EJ. subst j. rewrite (in_find _ i q (inv_sorted _ (b_arr oo BB)) HJ). discriminate.
        - intro HN. destruct (t_find (lst (its (arr oo))) i) as [q|] eqn:F; [|contradiction]. exists (i, q). split; [reflexivity | apply find_in; exact F]. }
      assert (UQ : forall l1 l2 : list Z, StronglySorted Z.lt l1 -> StronglySorted Z.lt l2 -> (forall i, In i l1 <-> In i l2) -> l1 = l2).
      { clear. induction l1 as [|a l1 IH]; intros l2 S1 S2 H.
        - destruct l2 as [|b l2]; [reflexivity|]. exfalso. apply (H b). left. reflexivity.
        - destruct l2 as [|b l2]; [exfalso; apply (H a); left; reflexivity|]. inversion S1 as [|? ? S1' F1]; inversion S2 as [|? ? S2' F2]; subst. rewrite Forall_forall in F1, F2.
          assert (a = b).
          { destruct (proj1 (H a) (or_introl eq_refl)) as [-> | H1]; [reflexivity|]. destruct (proj2 (H b) (or_introl eq_refl)) as [-> | H2]; [reflexivity|]. specialize (F1 b H2). specialize (F2 a H1). lia. }
          subst b. f_equal. apply IH; [exact S1' | exact S2'|]. intro i. split; intro Hi.
          + destruct (proj1 (H i) (or_intror Hi)) as [-> | H1]; [specialize (F1 i Hi); lia | exact H1].
          + destruct (proj2 (H i) (or_intror Hi)) as [-> | H1]; [specialize (F2 i Hi); lia | exact H1]. }
      apply UQ; [apply SO; exact B' | apply SO; exact B|]. intro i. rewrite (SI o' B'), (SI o B). apply SAME. }
    rewrite IE. replace (length (named o')) with (length (named o)) by (rewrite <- (map_length fst (named o)), <- N', map_length; reflexivity).
    assert (LE : num (arr o') = num (arr o)).
    { rewrite (inv_num _ (b_arr o B)), (inv_num _ (b_arr o' B')). rewrite <- (map_length fst (lst (its (arr o)))), <- IE, map_length. reflexivity. }
    rewrite LE. reflexivity.
  - intros k a V. specialize (LK k). rewrite (own_look o' k a B' V). split.
    + intros (q & LQ & <-). rewrite LQ in LK. destruct (look o k) as [p|] eqn:L; [|discriminate]. cbn in LK. injection LK as LK. exists (view p). split; [apply own_look; [exact B | exact V | exists p; auto] | exact LK].
    + intros (b & OB & ->). apply own_look in OB; [|exact B | exact V]. destruct OB as (p & L & <-). rewrite L in LK. destruct (look o' k) as [q|]; [|discriminate]. cbn in LK. injection LK as LK. exists q. auto.
  - destruct (test_level_spec fr o' OI') as (b & TE & TB). rewrite TE. f_equal. apply TB. split; [exact X'|]. intros k q LQ. specialize (LK k). rewrite LQ in LK. destruct (look o k) as [p|]; [|discriminate].
    cbn in LK. injection LK as ->. apply locked_idem.
Qed.
Theorem level_test : forall ops h x o fr, Forall op_ok ops -> o_run [] ops = Done h -> nth_error h x = Some o ->
  exists b, test_level fr o = SOk b /\ (b = true <-> ext o = false /\ forall k a, valid_key k -> own o k a -> locked fr a = a).
Proof.
  intros ops h x o fr OK E X. pose proof (reached _ _ OK E) as HI. pose proof (hi_objs h HI x o X) as OI. pose proof (oi_base o OI) as B.
  destruct (test_level_spec fr o OI) as (b & E1 & H). exists b. split; [exact E1|]. rewrite H. split; intros [X1 HA]; (split; [exact X1|]).
  - intros k a V OW. apply own_look in OW; [|exact B | exact V]. destruct OW as (p & L & <-). apply (HA k p L).
  - intros k p L. assert (V : valid_key k) by (apply (look_valid o); [exact B | congruence]). apply (HA k (view p) V). apply own_look; [exact B | exact V | exists p; auto].
Qed.
