(** Proofs about proxies: which answers of a trap are taken. *)
From Coq Require Import ZArith List Bool Lia.
Import ListNotations.
From Verif Require Import StrModel StoreModel StoreSpec StoreProofs ObjModel ObjSpec ObjProofs ArrProofs HeapProofs LevelProofs ProxyModel ProxySpec ProxyProofs.

Definition step_state (p x : nat) (s : pst) (e : event) (s1 : pst) (o : obj) : Prop :=
  existsb (Nat.eqb p) (revoked s) = false /\ evs s = e :: evs s1 /\ o_run (hp s) (e_ops e) = Done (hp s1) /\
  {| hp := hp s1; revoked := e_revoke e ++ revoked s; evs := evs s1; lost := lost s |} = s1 /\
  nth_error (hp s1) x = Some o /\ OInv o /\ kind o <> Exotic.
Lemma called : forall p x s e s1 o, trap_called p x s e s1 o -> step_state p x s e s1 o.
Proof.
  intros p x s e s1 o ((ops & OK & E) & NR & EV & EO & R & RV & L & N & K). unfold step_state. split; [|split; [exact EV|]; split; [exact R|]; split; [|split; [exact N|]; split; [|exact K]]].
  - apply not_true_is_false. intro H. apply existsb_exists in H. destruct H as (q & I & Q). apply Nat.eqb_eq in Q. subst q. contradiction.
  - destruct s1. cbn in *. subst. reflexivity.
  - assert (H : HInv (hp s1)) by (eapply run_hinv; [exact (reached ops _ OK E) | exact EO | exact R]). apply (hi_objs _ H x o N).
Qed.
Lemma trap_step : forall {A} p x s e s1 o (f : M A) k, step_state p x s e s1 o -> e_ans e <> NoTrap -> e_ans e <> Throws -> with_trap p f k s = k (e_ans e) s1.
Proof.
  intros A p x s e s1 o f k (NR & EV & R & S1 & _) N1 N2. unfold with_trap, mbind, is_revoked, ask. rewrite NR, EV, R, S1. destruct (e_ans e); congruence.
Qed.
Lemma ext_step : forall p x s e s1 o, step_state p x s e s1 o -> is_ext (TObj x) s1 = Ret (ext o) s1.
Proof. intros p x s e s1 o (_ & _ & _ & _ & N & _ & K). cbn. unfold mbind, the_obj. rewrite N. destruct (kind o); try reflexivity. congruence. Qed.
Lemma proto_step : forall p x s e s1 o, step_state p x s e s1 o -> get_proto (TObj x) s1 = Ret (proto o) s1.
Proof. intros p x s e s1 o (_ & _ & _ & _ & N & _ & K). cbn. unfold mbind, the_obj. rewrite N. destruct (kind o); try reflexivity. congruence. Qed.
Lemma own_step : forall p x s e s1 o k, step_state p x s e s1 o -> valid_key k -> get_own_of (TObj x) k s1 = Ret (option_map desc_of (look o k)) s1.
Proof.
  intros p x s e s1 o k (_ & _ & _ & _ & N & OI & K) V. cbn [get_own_of]. unfold mbind, the_obj. rewrite N. destruct (kind o); [| |congruence]; cbv beta iota; rewrite (get_own_look o k OI V); reflexivity.
Qed.
Lemma at_look : forall o k c, OInv o -> valid_key k -> at_key o k c -> option_map desc_of (look o k) = option_map full c.
Proof.
  intros o k c OI V H. destruct c as [a|]; cbn in H.
  - apply own_look in H; [|apply oi_base; exact OI|exact V]. destruct H as (p & -> & <-). cbn. rewrite desc_full. reflexivity.
  - apply lacks_look in H; [|apply oi_base; exact OI|exact V]. rewrite H. reflexivity.
Qed.
Lemma key_step : forall p x s e s1 o k c, step_state p x s e s1 o -> valid_key k -> at_key o k c -> get_own_of (TObj x) k s1 = Ret (option_map full c) s1.
Proof. intros. erewrite own_step by eassumption. rewrite (at_look o k c); auto. apply H. Qed.

Lemma verdict_if : forall {A} (b : bool) (P : Prop) (a : A) s1, (b = true <-> P) -> verdict P (if b then Ret a s1 else Thrown s1) a s1.
Proof. intros A b P a s1 H. split; intro X; destruct b; try reflexivity; [apply H in X; discriminate | exfalso; apply X; apply H; reflexivity]. Qed.
Lemma proto_eqb_iff : forall a b, proto_eqb a b = true <-> a = b.
Proof.
  intros [a|] [b|]; cbn; split; intro H; try discriminate; try reflexivity; [apply Nat.eqb_eq in H; congruence | injection H as ->; apply Nat.eqb_refl].
Qed.

Lemma mb : forall {A B} (m : M A) (f : A -> M B) s a s', m s = Ret a s' -> mbind m f s = f a s'.
Proof. intros A B m f s a s' H. unfold mbind. rewrite H. reflexivity. Qed.
Lemma verdict_b : forall {A} (b : bool) (P : Prop) (a : A) s1, (b = true <-> P) -> verdict P ((if b then ret a else throw) s1) a s1.
Proof. intros A b P a s1 H. replace ((if b then ret a else throw) s1) with (if b then Ret a s1 else Thrown s1) by (destruct b; reflexivity). apply verdict_if. exact H. Qed.
Lemma verdict_n : forall {A} (b : bool) (P : Prop) (a : A) s1, (b = false <-> P) -> verdict P ((if b then throw else ret a) s1) a s1.
Proof. intros A b P a s1 H. replace ((if b then throw else ret a) s1) with ((if negb b then ret a else throw) s1) by (destruct b; reflexivity). apply verdict_b. rewrite negb_true_iff. exact H. Qed.
Lemma verdict_yes : forall {A} (P : Prop) (a : A) s1, P -> verdict P (ret a s1) a s1.
Proof. intros A P a s1 H. split; [reflexivity | contradiction]. Qed.
Lemma verdict_no : forall {A} (P : Prop) (a : A) s1, ~ P -> verdict P (throw s1) a s1.
Proof. intros A P a s1 H. split; [contradiction | reflexivity]. Qed.
Lemma full_cf_flag : forall a, flag (d_cf (full a)) = true <-> configurable a.
Proof. intro a. unfold configurable. rewrite <- full_nonconf. destruct (flag (d_cf (full a))); split; congruence. Qed.
Lemma conf_dec : forall a, flag (d_cf (full a)) = true /\ configurable a \/ flag (d_cf (full a)) = false /\ non_configurable a.
Proof. intro a. destruct (flag (d_cf (full a))) eqn:E; [left; split; [reflexivity | apply full_cf_flag; exact E] | right; split; [reflexivity | apply full_nonconf; exact E]]. Qed.
Lemma writable_full : forall a, flag (d_wr (full a)) = true <-> writable_data a.
Proof. intros [v w e c|g s e c]; cbn; split; [intros ->; exists v, e, c; reflexivity | intros (v' & e' & c' & H); congruence | discriminate | intros (v' & e' & c' & H); discriminate]. Qed.
Lemma settle_complete : forall d a, is_acc d && is_data d = false -> settle d a -> complete d = full a.
Proof.
  intros d a H S. unfold settle, complete, is_acc, is_data, is_generic, is_accessor_desc in *. destruct d as [v w g st e c]. cbn in *. destruct S as [[N ->] | [Y ->]].
  - destruct g; [exfalso; apply N; left; discriminate|]. destruct st; [exfalso; apply N; right; discriminate|]. unfold is_acc, is_data. cbn. destruct v, w; reflexivity.
  - unfold is_acc, is_data. cbn. destruct g, st; cbn in *; try (destruct v, w; cbn in *; try discriminate; reflexivity). destruct Y; congruence.
Qed.
Lemma desc_kind : forall d, is_acc d && is_data d = true <-> is_accessor_desc d /\ is_data_desc d.
Proof.
  intro d. unfold is_acc, is_data, is_accessor_desc, is_data_desc. destruct d as [v w g st e c]; cbn. destruct v, w, g, st; cbn; split; try discriminate; try (intros [[?|?] [?|?]]; congruence); intros _; split;
    first [left; discriminate | right; discriminate].
Qed.

Section Trap.
Variables (p x : nat) (t : tgt) (s : pst) (e : event) (s1 : pst) (o : obj).
Hypothesis HT : t = TObj x.
Hypothesis C : trap_called p x s e s1 o.
Let S0 : step_state p x s e s1 o := called _ _ _ _ _ _ C.
Lemma ext_t : is_ext t s1 = Ret (ext o) s1.
Proof. rewrite HT. exact (ext_step _ _ _ _ _ _ S0). Qed.
Lemma truth_t : truth (is_ext t) s1 = Ret (ext o) s1.
Proof. unfold truth. rewrite ext_t. reflexivity. Qed.
Lemma proto_t : get_proto t s1 = Ret (proto o) s1.
Proof. rewrite HT. exact (proto_step _ _ _ _ _ _ S0). Qed.
Local Ltac trap A := rewrite (trap_step p x s e s1 o _ _ S0) by (rewrite A; discriminate); rewrite A; cbv beta iota.

Lemma trap_proto : forall q, e_ans e = Ref q -> verdict (accepts_proto (ext o) (proto o) q) (get_proto (TProxy p t) s) q s1.
Proof.
  intros q A. cbn [get_proto]. trap A. rewrite (mb _ _ _ _ _ truth_t). unfold accepts_proto. destruct (ext o); [apply verdict_yes; auto|].
  rewrite (mb _ _ _ _ _ proto_t). apply verdict_b. rewrite proto_eqb_iff. split; [auto | intros [X | X]; [discriminate | exact X]].
Qed.
Lemma trap_proto_bad : e_ans e = Bad -> get_proto (TProxy p t) s = Thrown s1.
Proof. intros A. cbn [get_proto]. trap A. reflexivity. Qed.
Lemma trap_set_proto : forall q, e_ans e = Bool true -> verdict (accepts_proto (ext o) (proto o) q) (set_proto_of (TProxy p t) q s) true s1.
Proof.
  intros q A. cbn [set_proto_of]. trap A. rewrite (mb _ _ _ _ _ ext_t). unfold accepts_proto. destruct (ext o); [apply verdict_yes; auto|].
  rewrite (mb _ _ _ _ _ proto_t). apply verdict_b. rewrite proto_eqb_iff. split; [auto | intros [X | X]; [discriminate | exact X]].
Qed.
Lemma trap_is_ext : forall b, e_ans e = Bool b -> verdict (b = ext o) (is_ext (TProxy p t) s) b s1.
Proof. intros b A. cbn [is_ext]. trap A. rewrite (mb _ _ _ _ _ ext_t). apply verdict_b. apply eqb_true_iff. Qed.
Lemma trap_prevent : e_ans e = Bool true -> verdict (ext o = false) (prevent (TProxy p t) s) true s1.
Proof. intros A. cbn [prevent]. trap A. rewrite (mb _ _ _ _ _ ext_t). apply verdict_n. reflexivity. Qed.

Section Key.
Variables (k : key) (c : option aprop).
Hypothesis V : valid_key k.
Hypothesis K : at_key o k c.
Lemma own_t : get_own_of t k s1 = Ret (option_map full c) s1.
Proof. rewrite HT. exact (key_step _ _ _ _ _ _ _ _ S0 V K). Qed.
Lemma missing_b : forall {A} (y : A) a, verdict (accepts_missing (ext o) (Some a)) ((if negb (flag (d_cf (full a))) then throw else let! e := truth (is_ext t) in if e : bool then ret y else throw) s1) y s1.
Proof.
  intros A y a. cbn [accepts_missing]. destruct (conf_dec a) as [[E N] | [E N]]; rewrite E; cbn [negb].
  - rewrite (mb _ _ _ _ _ truth_t). apply verdict_b. tauto.
  - apply verdict_no. intros [X _]. apply X. exact N.
Qed.
Lemma trap_missing : e_ans e = Val Undef -> verdict (accepts_missing (ext o) c) (get_own_of (TProxy p t) k s) None s1.
Proof.
  intro A. cbn [get_own_of]. trap A. rewrite (mb _ _ _ _ _ own_t). destruct c as [a|]; cbn [option_map]; [|apply verdict_yes; exact I].
  pose proof (missing_b (@None desc) a) as B. destruct (negb (flag (d_cf (full a)))); [exact B|]. rewrite (mb _ _ _ _ _ truth_t) in B. rewrite (mb _ _ _ _ _ ext_t). exact B.
Qed.
Lemma trap_own_bad : e_ans e = Bad -> get_own_of (TProxy p t) k s = Thrown s1.
Proof. intros A. cbn [get_own_of]. trap A. reflexivity. Qed.
Lemma trap_has : e_ans e = Bool false -> verdict (accepts_missing (ext o) c) (has_of (TProxy p t) k s) false s1.
Proof.
  intro A. cbn [has_of]. trap A. rewrite (mb _ _ _ _ _ own_t). destruct c as [a|]; cbn [option_map]; [apply missing_b | apply verdict_yes; exact I].
Qed.
Lemma trap_delete : e_ans e = Bool true -> verdict (accepts_missing (ext o) c) (delete_of (TProxy p t) k s) true s1.
Proof.
  intro A. cbn [delete_of]. trap A. rewrite (mb _ _ _ _ _ own_t). destruct c as [a|]; cbn [option_map]; [apply missing_b | apply verdict_yes; exact I].
Qed.
Lemma trap_get : forall v, e_ans e = Val v -> verdict (accepts_get c v) (get_of (TProxy p t) k s) v s1.
Proof.
  intros v A. cbn [get_of]. trap A. rewrite (mb _ _ _ _ _ own_t). destruct c as [a|]; cbn [option_map]; [|apply verdict_yes; exact I].
  destruct a as [w wr en cf|g st en cf]; cbn; destruct cf; try (apply verdict_yes; destruct wr; exact I); try (apply verdict_yes; destruct g; exact I).
  - destruct wr; cbn; [apply verdict_yes; exact I|]. destruct (val_eqb_spec v w) as [-> | N]; cbn; [apply verdict_yes; reflexivity | apply verdict_no; exact N].
  - destruct g; cbn; try (apply verdict_yes; exact I). destruct (val_eqb_spec v Undef) as [-> | N]; cbn; [apply verdict_yes; reflexivity | apply verdict_no; exact N].
Qed.
Lemma trap_set : forall v rcv cv, e_ans e = Bool true -> verdict (accepts_set c v) (set_of (TProxy p t) k v rcv cv s) true s1.
Proof.
  intros v rcv cv A. cbn [set_of]. trap A. rewrite (mb _ _ _ _ _ own_t). destruct c as [a|]; cbn [option_map]; [|apply verdict_yes; exact I].
  destruct a as [w wr en cf|g st en cf]; cbn; destruct cf; try (apply verdict_yes; destruct wr; exact I); try (apply verdict_yes; destruct st; exact I).
  - destruct wr; cbn; [apply verdict_yes; exact I|]. destruct (val_eqb_spec v w) as [-> | N]; cbn; [apply verdict_yes; reflexivity | apply verdict_no; exact N].
  - destruct st; cbn; try (apply verdict_yes; exact I). apply verdict_no. auto.
Qed.
Lemma trap_define : forall d cv, wf_desc d -> e_ans e = Bool true -> verdict (accepts_define (ext o) c d) (define_of (TProxy p t) k d cv s) true s1.
Proof.
  intros d cv W A. cbn [define_of]. trap A. rewrite (mb _ _ _ _ _ own_t). rewrite (mb _ _ _ _ _ ext_t).
  assert (SF : is_some (d_cf d) && negb (flag (d_cf d)) = true <-> d_cf d = Some false) by (destruct (d_cf d) as [[]|]; cbn; split; congruence).
  assert (SW : is_some (d_wr d) && negb (flag (d_wr d)) = true <-> d_wr d = Some false) by (destruct (d_wr d) as [[]|]; cbn; split; congruence).
  destruct c as [a|]; cbn [option_map accepts_define].
  - destruct (compatible (ext o) d (Some (full a))) eqn:CO; cbn [negb].
    2: { apply verdict_no. intros [X _]. apply (compatible_full_iff (ext o) d a W) in X. congruence. }
    apply compatible_full_iff in CO; [|exact W].
    destruct (is_some (d_cf d) && negb (flag (d_cf d)) && flag (d_cf (full a))) eqn:B1.
    { apply andb_true_iff in B1. destruct B1 as [B1 B2]. apply SF in B1. apply full_cf_flag in B2. apply verdict_no. intros (_ & X & _). apply B2. apply X. exact B1. }
    assert (ID : is_data (full a) = true -> flag (d_wr (full a)) = true -> writable_data a) by (intros _ X; apply writable_full; exact X).
    assert (ID2 : writable_data a -> is_data (full a) = true) by (intros (v & en & cf & ->); reflexivity).
    apply verdict_n. split.
    + intro B2. split; [exact CO|]. split.
      * intro D. apply SF in D. rewrite D in B1. cbn in B1. apply full_nonconf. exact B1.
      * intros WD NC D. apply SW in D. apply full_nonconf in NC. rewrite (ID2 WD), NC, D in B2. apply writable_full in WD. rewrite WD in B2. discriminate.
    + intros (_ & X1 & X2). apply not_true_is_false. intro B2. rewrite !andb_true_iff in B2. destruct B2 as [[[D1 D2] D3] D4].
      apply negb_true_iff in D2. apply full_nonconf in D2. apply (X2 (ID D1 D3) D2). apply SW. apply andb_true_iff. exact D4.
  - apply verdict_n. rewrite orb_false_iff, negb_false_iff. rewrite <- not_true_iff_false. rewrite SF. reflexivity.
Qed.
Lemma trap_desc : forall e2 h d a, e_ans e = AnObject -> evs s1 = e2 :: h -> Forall op_ok (e_ops e2) ->
  forall h2, o_run (hp s1) (e_ops e2) = Done h2 -> e_ans e2 = Descr d ->
  let s2 := {| hp := h2; revoked := e_revoke e2 ++ revoked s1; evs := h; lost := lost s1 |} in
  (is_accessor_desc d /\ is_data_desc d -> get_own_of (TProxy p t) k s = Thrown s2) /\
  (~ (is_accessor_desc d /\ is_data_desc d) -> settle d a -> verdict (accepts_desc (ext o) c a) (get_own_of (TProxy p t) k s) (Some (full a)) s2).
Proof.
  intros e2 h d a A EV OK h2 R A2 s2. cbn [get_own_of]. trap A. rewrite (mb _ _ _ _ _ own_t). rewrite (mb _ _ _ _ _ ext_t).
  assert (AS : ask s1 = Ret (Descr d) s2) by (unfold ask; rewrite EV, R, A2; reflexivity). rewrite (mb _ _ _ _ _ AS). rewrite <- desc_kind.
  destruct (is_acc d && is_data d) eqn:AD; (split; [intro X; try discriminate X; try reflexivity | intro X; try congruence]).
  intro ST. rewrite (settle_complete d a AD ST). clear X ST. unfold accepts_desc.
  assert (CO : compatible (ext o) (full a) (option_map full c) = true <-> match c with None => ext o = true | Some b => ~ rejected (full a) b end).
  { destruct c as [b|]; cbn [option_map]; [apply compatible_full_iff; apply full_wf | reflexivity]. }
  destruct (compatible (ext o) (full a) (option_map full c)) eqn:CE; cbn [negb].
  2: { apply verdict_no. intros [X _]. apply CO in X. discriminate. }
  pose proof (proj1 CO eq_refl) as CP. destruct (conf_dec a) as [[E N] | [E N]]; rewrite E; cbn [negb].
  { apply verdict_yes. split; [exact CP|]. intro X. exfalso. apply N. exact X. }
  destruct c as [b|]; cbn [option_map].
  2: { apply verdict_no. intros [_ X]. destruct (X N) as (b & Y & _). discriminate. }
  destruct (conf_dec b) as [[EB NB] | [EB NB]]; rewrite EB.
  { apply verdict_no. intros [_ X]. destruct (X N) as (b' & Y & Z & _). injection Y as <-. apply NB. exact Z. }
  apply verdict_n. assert (RO : (exists v en cf, a = AData v false en cf) -> flag (d_wr (full a)) = false) by (intros (v & en & cf & ->); reflexivity).
  split.
  - intro B. split; [exact CP|]. intros _. exists b. split; [reflexivity|]. split; [exact NB|]. intros WB RA. apply writable_full in WB. rewrite WB, (RO RA) in B. discriminate.
  - intros [_ X]. destruct (X N) as (b' & Y & _ & Z). injection Y as <-. destruct (flag (d_wr (full b))) eqn:FB; [|rewrite andb_false_r; reflexivity].
    apply writable_full in FB. destruct (flag (d_wr (full a))) eqn:FA; [reflexivity|]. exfalso. apply (Z FB).
    destruct (accepted_stable a b CP NB) as [SA _]. destruct FB as (v & en & cf & ->). cbn in NB. subst cf. destruct (SA eq_refl) as (v' & w' & ->). cbn in FA. subst w'. eauto.
Qed.
End Key.

Lemma trap_keys_bad : e_ans e = Bad -> keys_of (TProxy p t) s = Thrown s1.
Proof. intros A. cbn [keys_of]. trap A. reflexivity. Qed.
Lemma classify_t : forall ks, Forall valid_key ks -> (forall k, In k ks -> look o k <> None) ->
  classify t ks s1 = Ret (filter (fun k => match look o k with Some q => negb (cf q) | None => false end) ks, filter (fun k => match look o k with Some q => cf q | None => true end) ks) s1.
Proof.
  induction ks as [|k r IH]; intros FV HL; cbn [classify]; [reflexivity|]. inversion FV; subst.
  pose proof (own_step _ _ _ _ _ _ k S0 ltac:(assumption)) as OS.
  rewrite (mb _ _ _ _ _ OS). rewrite (mb _ _ _ _ _ (IH ltac:(assumption) (fun j J => HL j (or_intror J)))). unfold ret. cbn [filter fst snd].
  specialize (HL k (or_introl eq_refl)). destruct (look o k) as [q|]; [|congruence]. cbn [option_map]. rewrite desc_full.
  assert (CF : flag (d_cf (full (view q))) = cf q) by (unfold view; destruct (acc q); reflexivity). rewrite CF. destruct (cf q); reflexivity.
Qed.
Lemma take_out_some : forall ks l, NoDup ks -> (exists l', take_out ks l = Some l') <-> (forall k, In k ks -> In k l).
Proof.
  induction ks as [|k r IH]; intros l ND; cbn [take_out]; [split; [intros _ j [] | eauto]|]. inversion ND; subst. split.
  - intros (l' & H). destruct (kmem k l) eqn:M; [|discriminate]. apply kmem_in in M.
    intros j [<- | J]; [exact M|]. pose proof (proj1 (IH _ H2) (ex_intro _ l' H) j J) as X. apply filter_In in X. apply X.
  - intro H. assert (M : kmem k l = true) by (apply kmem_in; apply H; left; reflexivity). rewrite M. apply (IH _ H2). intros j J. apply filter_In. split; [apply H; right; exact J|].
    destruct (key_eqb_spec k j) as [-> | N]; [contradiction | reflexivity].
Qed.
Lemma trap_keys : forall ks, Forall valid_key ks -> e_ans e = KeyList ks ->
  verdict (accepts_keys (ext o) (fun k => valid_key k /\ exists a, own o k a) (fun k => valid_key k /\ exists a, own o k a /\ non_configurable a) ks) (keys_of (TProxy p t) s) ks s1.
Proof.
  intros ks VK A. cbn [keys_of]. trap A. destruct S0 as (_ & _ & _ & _ & NX & OI & NK). pose proof (oi_base o OI) as B. unfold accepts_keys.
  destruct (has_dup ks) eqn:HD.
  { apply verdict_no. intros [ND _]. apply has_dup_nodup in ND. congruence. }
  apply has_dup_nodup in HD. rewrite (mb _ _ _ _ _ ext_t). destruct (own_keys_all o B) as (tks & TE & TN & TI).
  assert (KT : keys_of t s1 = Ret tks s1).
  { rewrite HT. cbn [keys_of]. unfold mbind, the_obj. rewrite NX. destruct (kind o); [| |congruence]; cbv beta iota; rewrite TE; reflexivity. }
  rewrite (mb _ _ _ _ _ KT).
  assert (TV : Forall valid_key tks) by (apply Forall_forall; intros k H; apply (look_valid o); [exact B | apply TI; exact H]).
  rewrite (mb _ _ _ _ _ (classify_t tks TV (fun k H => proj1 (TI k) H))). cbv beta iota.
  set (ncfg := filter _ tks). set (cfg := filter _ tks).
  assert (HAS : forall k, (valid_key k /\ exists a, own o k a) <-> In k tks).
  { intro k. rewrite TI. split.
    - intros (VV & a & H) L. apply own_look in H; [|exact B|exact VV]. destruct H as (q & Q & _). congruence.
    - intro H. assert (VV : valid_key k) by (apply (look_valid o); [exact B | exact H]). split; [exact VV|]. destruct (look o k) as [q|] eqn:L; [|congruence].
      exists (view q). apply own_look; [exact B | exact VV | eauto]. }
  assert (PIN : forall k, (valid_key k /\ exists a, own o k a /\ non_configurable a) <-> In k ncfg).
  { intro k. unfold ncfg. rewrite filter_In, TI. split.
    - intros (VV & a & H & NC). apply own_look in H; [|exact B|exact VV]. destruct H as (q & Q & <-). rewrite Q. split; [discriminate|]. apply view_nonconf in NC. rewrite NC. reflexivity.
    - intros [H1 H2]. assert (VV : valid_key k) by (apply (look_valid o); [exact B | exact H1]). split; [exact VV|]. destruct (look o k) as [q|] eqn:L; [|congruence].
      exists (view q). split; [apply own_look; [exact B | exact VV | eauto]|]. apply view_nonconf. destruct (cf q); [discriminate | reflexivity]. }
  assert (PART : forall k, In k tks <-> In k ncfg \/ In k cfg).
  { intro k. unfold ncfg, cfg. rewrite !filter_In. destruct (look o k) as [q|]; [destruct (cf q)|]; cbn; tauto || (split; [auto | intros [[_ X] | [X _]]; [discriminate | exact X]]). }
  assert (DJ : forall k, In k ncfg -> In k cfg -> False).
  { intros k. unfold ncfg, cfg. rewrite !filter_In. intros [_ X] [_ Y]. destruct (look o k) as [q|]; [destruct (cf q)|]; discriminate. }
  assert (NN : NoDup ncfg) by (apply NoDup_filter; exact TN). assert (NCF : NoDup cfg) by (apply NoDup_filter; exact TN).
  assert (GP : (forall k, (valid_key k /\ exists a, own o k a /\ non_configurable a) -> In k ks) <-> (forall k, In k ncfg -> In k ks)).
  { split; intros H k X; apply H; apply PIN; exact X. }
  destruct (ext o && match ncfg with [] => true | _ :: _ => false end) eqn:EN.
  { apply andb_true_iff in EN. destruct EN as [EX EN]. apply verdict_yes. split; [exact HD|]. split; [|congruence]. apply GP. destruct ncfg; [intros k [] | discriminate]. }
  destruct (take_out ncfg ks) as [l|] eqn:T.
  2: { apply verdict_no. intros (_ & H & _). destruct (proj2 (take_out_some ncfg ks NN) (proj1 GP H)). congruence. }
  destruct (take_out_spec _ _ _ T) as [T1 T2]. destruct (ext o) eqn:EX.
  { apply verdict_yes. split; [exact HD|]. split; [apply GP; exact T1 | discriminate]. }
  destruct (take_out cfg l) as [l'|] eqn:T3.
  2: { apply verdict_no. intros (_ & _ & H). specialize (H eq_refl). assert (X : forall k, In k cfg -> In k l).
       { intros k Hk. apply T2. split; [|intro Y; apply (DJ k Y Hk)]. apply H. apply HAS. apply PART. right. exact Hk. }
       destruct (proj2 (take_out_some cfg l NCF) X). congruence. }
  destruct (take_out_spec _ _ _ T3) as [U1 U2]. destruct l' as [|z l'].
  - apply verdict_yes. split; [exact HD|]. split; [apply GP; exact T1|]. intros _ k. rewrite HAS, PART. split.
    + intro Hk. destruct (mem_dec k ncfg) as [Y | N]; [left; exact Y|]. right. destruct (mem_dec k cfg) as [Y | N2]; [exact Y|]. exfalso. apply (in_nil (a := k)). apply U2. split; [apply T2; auto | exact N2].
    + intros [Y | Y]; [apply T1; exact Y|]. apply U1 in Y. apply T2 in Y. apply Y.
  - apply verdict_no. intros (_ & _ & H). specialize (H eq_refl z). destruct (proj1 (U2 z) (or_introl eq_refl)) as [Z1 Z2]. apply T2 in Z1. destruct Z1 as [Z1 Z3].
    apply H in Z1. apply HAS in Z1. apply PART in Z1. tauto.
Qed.
End Trap.

(** ** without traps, and revoked *)
Lemma no_trap : forall {A} p (f : M A) k s e r h, existsb (Nat.eqb p) (revoked s) = false -> evs s = e :: r -> o_run (hp s) (e_ops e) = Done h -> e_ans e = NoTrap ->
  with_trap p f k s = f {| hp := h; revoked := e_revoke e ++ revoked s; evs := r; lost := lost s |}.
Proof. intros A p f k s e r h NR EV R AN. unfold with_trap, mbind, is_revoked, ask. rewrite NR, EV, R, AN. reflexivity. Qed.
Lemma transparent : forall p t op s e r h, (forall ops, op <> PScript ops) -> ~ In p (revoked s) -> evs s = e :: r -> o_run (hp s) (e_ops e) = Done h -> e_ans e = NoTrap ->
  p_step (TProxy p t) op s = p_step t op {| hp := h; revoked := e_revoke e ++ revoked s; evs := r; lost := lost s |}.
Proof.
  intros p t op s e r h NS NI EV R AN. assert (NR : existsb (Nat.eqb p) (revoked s) = false).
  { apply not_true_is_false. intro H. apply existsb_exists in H. destruct H as (q & I & Q). apply Nat.eqb_eq in Q. subst q. contradiction. }
  destruct op; cbn [p_step]; unfold map_m; try (unfold mbind at 1; cbn [get_proto set_proto_of is_ext prevent get_own_of define_of has_of get_of set_of delete_of keys_of]; rewrite (no_trap p _ _ s e r h NR EV R AN); reflexivity).
  exfalso. eapply NS. reflexivity.
Qed.
Lemma revoked_throws : forall p t op s, (forall ops, op <> PScript ops) -> In p (revoked s) -> p_step (TProxy p t) op s = Thrown s.
Proof.
  intros p t op s NS I. assert (NR : existsb (Nat.eqb p) (revoked s) = true) by (apply existsb_exists; exists p; split; [exact I | apply Nat.eqb_refl]).
  destruct op; cbn [p_step]; unfold map_m; try (unfold mbind at 1; cbn [get_proto set_proto_of is_ext prevent get_own_of define_of has_of get_of set_of delete_of keys_of]; unfold with_trap, mbind, is_revoked; rewrite NR; reflexivity).
  exfalso. eapply NS. reflexivity.
Qed.
