(** * Numeric literals of programs: lex_number reads the longest literal *)
Require Import ZArith List Bool Lia QArith.
From Verif Require Import DtoaModel DtoaSpec LexNumModel LexNumSpec LexNumRound LexNumScan LexNumString LexNumConvert
  LexNumBig LexNumSourceSpec LexNumSource LexNumSourceLex.
From Verif Require StrModel StrSpec BigModel BigSpec.
Import ListNotations.
Local Open Scope Z_scope.

(** ** What the value of the token should be *)
Definition means (x : meaning) (v : LexNumModel.value) : Prop :=
  match x, v with
  | MNum q, VNum n => rounds false q n
  | MBig z, VBig b => BigSpec.normal b /\ BigSpec.value b = z
  | _, _ => False
  end.

(** Literals with a radix prefix, and legacy octal ones *)
Definition radix_like (w : list Z) : Prop :=
  (exists p r u, radix_prefix p r /\ w = p ++ u) \/ (exists u, w = 48 :: u /\ u <> [] /\ digits 8 u).
(** The literals for which the value is claimed: not extremely long, and exact
    in a double if the radix is not ten. *)
Definition fits (w : list Z) (x : meaning) : Prop :=
  len w <= 19000 /\ (radix_like w -> forall z, x = MNum (inject_Z z) -> z <= 2 ^ 53).

(** A legacy octal literal with a point or an exponent after it *)
Definition octal_point (s : list Z) : Prop :=
  exists u c t, s = 48 :: u ++ c :: t /\ u <> [] /\ digits 8 u /\ (c = 46 \/ c = 101 \/ c = 69).
(** A legacy decimal literal with separators *)
Definition legacy_separated (w : list Z) : Prop :=
  exists u t, w = 48 :: u ++ t /\ u <> [] /\ digits 10 u /\ In 95 t.

(** ** Characters *)
Definition ichar (c : Z) : Prop := digit_in 10 c \/ c = 95.
Definition dchar (c : Z) : Prop := digit_in 10 c \/ c = 95 \/ c = 46 \/ c = 101 \/ c = 69 \/ c = 43 \/ c = 45.

Lemma ichar_not : forall c, ichar c -> c <> 46 /\ c <> 43 /\ c <> 45 /\ c <> 101 /\ c <> 69 /\ c <> 110.
Proof.
  intros c [H| ->]; [|repeat split; discriminate].
  repeat split; intros ->; vm_compute in H; discriminate.
Qed.

Lemma int_chars : forall st i iw, source_int st i iw -> Forall ichar i.
Proof.
  intros st i iw H. inversion H as [u w P|w _ D]; subst.
  - inversion P as [|c u w' S N]; subst; [repeat constructor|].
    apply separated_chars in S. exact S.
  - constructor; [left; vm_compute; reflexivity|]. eapply Forall_impl; [|exact D]. intros c Hc. left. exact Hc.
Qed.
Lemma frac_chars : forall f fw, source_frac f fw -> Forall ichar f.
Proof. intros f fw [[-> _]|H]; [constructor|]. apply separated_chars in H. exact H. Qed.
Lemma exp_chars : forall x e, source_exp x e -> Forall dchar x.
Proof.
  intros x e H. inversion H as [|c sg neg u w HC SG S]; subst; [constructor|].
  constructor; [unfold dchar; tauto|]. apply Forall_app. split.
  - inversion SG; subst; repeat constructor; unfold dchar; tauto.
  - eapply Forall_impl; [|eapply separated_chars; exact S]. intros d [Hd|Hd]; unfold dchar; tauto.
Qed.
Lemma ichar_dchar : forall u, Forall ichar u -> Forall dchar u.
Proof. intros u H. eapply Forall_impl; [|exact H]. intros c [Hc|Hc]; unfold dchar; tauto. Qed.

Lemma forall_not_in : forall (P : Z -> Prop) u c, Forall P u -> ~ P c -> ~ In c u.
Proof. intros P u c H N I. rewrite Forall_forall in H. apply N. apply H. exact I. Qed.

Lemma int_nonempty : forall st i iw, source_int st i iw -> i <> [] /\ iw <> [] /\ digits 10 iw /\ len iw <= len i.
Proof.
  intros st i iw H. inversion H as [u w P|w _ D]; subst.
  - inversion P as [|c u w' S N]; subst.
    + repeat split; try discriminate. repeat constructor.
    + destruct (separated_digits _ _ _ S). pose proof (separated_len _ _ _ S). repeat split; try assumption. discriminate.
  - repeat split; try discriminate; [|lia]. constructor; [vm_compute; reflexivity|exact D].
Qed.

Lemma separated_last : forall r u w, separated r u w -> exists u' d, u = u' ++ [d] /\ digit_in r d.
Proof.
  intros r u w H. induction H as [c H|c u w H _ (u' & d & -> & D)|c u w H _ (u' & d & -> & D)].
  - exists [], c. auto.
  - exists (c :: u'), d. auto.
  - exists (c :: 95 :: u'), d. auto.
Qed.
Lemma digits_last : forall r w, digits r w -> w <> [] -> exists u' d, w = u' ++ [d] /\ digit_in r d.
Proof. intros r w D N. eapply separated_last. apply separated_plain; eassumption. Qed.
Lemma int_last : forall st i iw, source_int st i iw -> exists u' d, i = u' ++ [d] /\ digit_in 10 d.
Proof.
  intros st i iw H. inversion H as [u w P|w _ D N]; subst.
  - inversion P as [|c u w' S _]; subst; [exists [], 48; split; [reflexivity|vm_compute; reflexivity]|].
    eapply separated_last; exact S.
  - apply (digits_last 10 (48 :: w)); [|discriminate]. constructor; [vm_compute; reflexivity|exact D].
Qed.
Lemma exp_last : forall x e, source_exp x e -> x <> [] -> exists u' d, x = u' ++ [d] /\ digit_in 10 d.
Proof.
  intros x e H N. inversion H as [|c sg neg u w HC SG S]; subst; [contradiction|].
  destruct (separated_last _ _ _ S) as (u' & d & -> & D). exists (c :: sg ++ u'), d.
  split; [cbn [app]; rewrite <- app_assoc; reflexivity|exact D].
Qed.

(** A literal that ends with e is a hexadecimal one. *)
Lemma ends_with_e : forall st y ex x, literal st (y ++ [ex]) x -> ex = 101 \/ ex = 69 -> In 120 (y ++ [ex]) \/ In 88 (y ++ [ex]).
Proof.
  intros st y ex x H HE. remember (y ++ [ex]) as w eqn:EW.
  assert (L : forall u d r, r <= 10 -> w = u ++ [d] -> digit_in r d -> False).
  { intros u d r R Q D. rewrite Q in EW. apply app_inj_tail in EW. destruct EW as [_ ->]. unfold digit_in in D.
    destruct HE as [-> | ->]; [change (14 < r) in D|change (14 < r) in D]; lia. }
  assert (LX : forall pre u e, source_exp u e -> w = pre ++ u -> u <> [] -> False).
  { intros pre u e X Q N. destruct (exp_last _ _ X N) as (u' & d & -> & D). rewrite app_assoc in Q. eapply (L _ d 10); [lia|exact Q|exact D]. }
  inversion H as [i iw u e I X|i iw f fw u e I F X|f fw u e F X|p r u uw P S|p r u uw P S|u uw P|u Q N D]; subst x.
  - exfalso. destruct u as [|c u]; [|eapply LX; [exact X|symmetry; eassumption|discriminate]].
    destruct (int_last _ _ _ I) as (u' & d & -> & D). rewrite app_nil_r in *. eapply (L u' d 10); [lia|symmetry; eassumption|exact D].
  - exfalso. destruct u as [|c u].
    2:{ apply (LX (i ++ 46 :: f) (c :: u) e X); [|discriminate]. rewrite <- app_assoc. symmetry. assumption. }
    rewrite app_nil_r in *. destruct F as [[-> _]|F].
    + rewrite EW in H0. apply app_inj_tail in H0. destruct H0 as [_ <-]. lia.
    + destruct (separated_last _ _ _ F) as (u' & d & -> & D). apply (L (i ++ 46 :: u') d 10); [lia| |exact D].
      rewrite <- app_assoc. symmetry. assumption.
  - exfalso. destruct u as [|c u].
    2:{ apply (LX (46 :: f) (c :: u) e X); [|discriminate]. symmetry. assumption. }
    rewrite app_nil_r in *. destruct (separated_last _ _ _ F) as (u' & d & -> & D). apply (L (46 :: u') d 10); [lia| |exact D].
    symmetry. assumption.
  - destruct (separated_last _ _ _ S) as (u' & d & -> & D).
    destruct P as [[-> _]|[[-> _]|[_ [-> | ->]]]].
    + exfalso. apply (L (p ++ u') d 2); [lia| |exact D]. rewrite <- app_assoc. symmetry. assumption.
    + exfalso. apply (L (p ++ u') d 8); [lia| |exact D]. rewrite <- app_assoc. symmetry. assumption.
    + left. cbn [app]. right. left. reflexivity.
    + right. cbn [app]. right. left. reflexivity.
  - exfalso. rewrite app_assoc, EW in H0. apply app_inj_tail in H0. destruct H0 as [_ <-]. lia.
  - exfalso. rewrite EW in H0. apply app_inj_tail in H0. destruct H0 as [_ <-]. lia.
  - exfalso. destruct (digits_last _ _ D N) as (u' & d & -> & Dd). apply (L (48 :: u') d 8); [lia| |exact Dd].
    symmetry. assumption.
Qed.

Lemma split_at : forall (c : Z) a b a' b', ~ In c a -> ~ In c b -> a' ++ c :: b' = a ++ c :: b -> a' = a /\ b' = b.
Proof.
  intros c a. induction a as [|d a IH]; intros b a' b' NA NB E; destruct a' as [|d' a']; cbn [app] in E.
  - injection E as ->. auto.
  - exfalso. injection E as _ E. apply NB. rewrite <- E. apply in_or_app. right. left. reflexivity.
  - exfalso. injection E as -> _. apply NA. left. reflexivity.
  - injection E as -> E. apply IH in E; [destruct E as [-> ->]; auto| |exact NB]. intros I. apply NA. right. exact I.
Qed.

Lemma dchar_not : forall c, c = 120 \/ c = 88 -> ~ dchar c.
Proof.
  intros c HC [H|H]; [|lia]. destruct HC as [-> | ->]; vm_compute in H; discriminate.
Qed.

(** How a literal can be longer than another one *)
Lemma longer_sign : forall st w c z i y u e x, (c = 43 \/ c = 45) -> literal st w x ->
  w ++ c :: z = i ++ u -> i = y -> Forall dchar y -> ~ In c y -> source_exp u e -> False.
Proof.
  intros st w c z i y u e x HC HL E -> DY NY X.
  inversion X as [|d sg neg v vw HD SG S]; subst.
  - rewrite app_nil_r in E. apply NY. rewrite <- E. apply in_or_app. right. left. reflexivity.
  - assert (NV : ~ In c v).
    { apply (forall_not_in ichar); [apply separated_chars in S; exact S|].
      intros I. destruct (ichar_not _ I) as (_ & ? & ? & _). lia. }
    assert (NC : c <> d) by lia.
    destruct (in_dec Z.eq_dec c sg) as [I|I].
    + assert (sg = [c]) by (inversion SG; subst; cbn [In] in I; [contradiction| |]; destruct I as [<-|[]]; reflexivity). subst sg.
      replace (y ++ d :: [c] ++ v) with ((y ++ [d]) ++ c :: v) in E by (rewrite <- app_assoc; reflexivity).
      apply split_at in E; [|intros I'; apply in_app_or in I'; destruct I' as [I'|[I'|[]]]; [contradiction|congruence]|exact NV].
      destruct E as [-> ->].
      assert (DW : Forall dchar (y ++ [d])) by (apply Forall_app; split; [exact DY|constructor; [unfold dchar; tauto|constructor]]).
      destruct (ends_with_e _ _ _ _ HL HD) as [I1|I1]; revert I1; apply (forall_not_in dchar); try exact DW; apply dchar_not; auto.
    + assert (J : In c (y ++ d :: sg ++ v)) by (rewrite <- E; apply in_or_app; right; left; reflexivity).
      apply in_app_or in J. destruct J as [J|[J|J]]; [contradiction|congruence|].
      apply in_app_or in J. tauto.
Qed.

Lemma exp_no_dot : forall u e, source_exp u e -> ~ In 46 u.
Proof.
  intros u e X. inversion X as [|d sg neg v vw HD SG S]; subst; [intros []|].
  intros [I|I]; [lia|]. apply in_app_or in I. destruct I as [I|I].
  - inversion SG; subst; cbn [In] in I; lia.
  - revert I. apply (forall_not_in ichar); [apply separated_chars in S; exact S|]. intros J. apply ichar_not in J. lia.
Qed.

Lemma literal_nonempty : forall st w x, literal st w x -> w <> [].
Proof.
  intros st w x H ->. inversion H as [i iw u e I X E|i iw f fw u e I F X E|f fw u e F X E|p r u uw P S E|p r u uw P S E|u uw P E|u Q N D E].
  - apply app_eq_nil in E. destruct E as [-> _]. apply int_nonempty in I. tauto.
  - destruct i; discriminate.
  - apply app_eq_nil in E. destruct E as [-> _]. destruct (prefix_head _ _ P). discriminate.
  - apply app_eq_nil in E. destruct E as [-> _]. destruct (prefix_head _ _ P). discriminate.
  - destruct u; discriminate.
Qed.

Lemma longer : forall st w x c z x', literal st w x -> literal st (w ++ c :: z) x' -> c = 46 \/ c = 43 \/ c = 45 ->
  c = 46 /\ exists iw, source_int st w iw.
Proof.
  intros st w x c z x' H H' HC.
  assert (NI : forall i, Forall ichar i -> ~ In c i).
  { intros i I. apply (forall_not_in ichar); [exact I|]. intros J. apply ichar_not in J. lia. }
  assert (NR : forall r u uw, base_ok r -> separated r u uw -> ~ In c u).
  { intros r u uw B S. apply separated_chars in S. apply (forall_not_in _ _ _ S). intros [D|D]; [|lia].
    assert (D36 : digit_in 36 c) by (eapply digit_char; [|exact D]; unfold base_ok in B; lia).
    apply digit_not in D36. lia. }
  assert (J : In c (w ++ c :: z)) by (apply in_or_app; right; left; reflexivity).
  remember (w ++ c :: z) as w' eqn:EW.
  inversion H' as [i iw u e I X E|i iw f fw u e I F X E|f fw u e F X E|p r u uw P S E|p r u uw P S E|u uw P E|u Q N D E]; subst x'; rewrite EW in E.
  - pose proof (int_chars _ _ _ I) as CI. destruct (Z.eq_dec c 46) as [->|NC].
    + exfalso. subst w'. rewrite <- E in J. apply in_app_or in J. destruct J as [J|J]; [eapply NI; eassumption|].
      eapply exp_no_dot; eassumption.
    + exfalso. eapply (longer_sign st w c z i i u e); [lia|exact H|symmetry; exact E|reflexivity| |apply NI; exact CI|exact X].
      apply ichar_dchar; exact CI.
  - pose proof (int_chars _ _ _ I) as CI. pose proof (frac_chars _ _ F) as CF.
    destruct (Z.eq_dec c 46) as [->|NC].
    + symmetry in E. apply split_at in E; [destruct E as [-> _]; split; [reflexivity|exists iw; exact I]|apply NI; exact CI|].
      intros K. apply in_app_or in K. destruct K as [K|K]; [exact (NI _ CF K)|exact (exp_no_dot _ _ X K)].
    + exfalso. eapply (longer_sign st w c z (i ++ 46 :: f) (i ++ 46 :: f) u e); [lia|exact H| |reflexivity| | |exact X].
      * rewrite <- app_assoc. symmetry. exact E.
      * apply Forall_app. split; [apply ichar_dchar; exact CI|]. constructor; [unfold dchar; tauto|apply ichar_dchar; exact CF].
      * intros K. apply in_app_or in K. destruct K as [K|[K|K]]; [exact (NI _ CI K)|lia|exact (NI _ CF K)].
  - assert (CF : Forall ichar f) by (apply separated_chars in F; exact F). destruct (Z.eq_dec c 46) as [->|NC].
    + exfalso. symmetry in E. change (46 :: f ++ u) with ([] ++ 46 :: (f ++ u)) in E.
      apply split_at in E; [destruct E as [-> _]; eapply literal_nonempty; [exact H|reflexivity]|intros []|].
      intros K. apply in_app_or in K. destruct K as [K|K]; [exact (NI _ CF K)|exact (exp_no_dot _ _ X K)].
    + exfalso. eapply (longer_sign st w c z (46 :: f) (46 :: f) u e); [lia|exact H| |reflexivity| | |exact X].
      * symmetry. exact E.
      * constructor; [unfold dchar; tauto|apply ichar_dchar; exact CF].
      * intros [K|K]; [lia|exact (NI _ CF K)].
  - exfalso. subst w'. rewrite <- E in J. apply in_app_or in J. destruct J as [J|J].
    + destruct P as [[_ [-> | ->]]|[[_ [-> | ->]]|[_ [-> | ->]]]]; cbn [In] in J; lia.
    + eapply NR; [|exact S|exact J]. apply radix_base in P. unfold base_ok. tauto.
  - exfalso. subst w'. rewrite <- E in J. apply in_app_or in J. destruct J as [J|J].
    + destruct P as [[_ [-> | ->]]|[[_ [-> | ->]]|[_ [-> | ->]]]]; cbn [In] in J; lia.
    + apply in_app_or in J. destruct J as [J|[J|[]]]; [|lia].
      eapply NR; [|exact S|exact J]. apply radix_base in P. unfold base_ok. tauto.
  - exfalso. subst w'. rewrite <- E in J. apply in_app_or in J. destruct J as [J|[J|[]]]; [|lia].
    eapply NI; [|exact J]. eapply (int_chars st). constructor. exact P.
  - exfalso. subst w'. rewrite <- E in J. revert J. apply (forall_not_in (digit_in 36)).
    + constructor; [vm_compute; reflexivity|]. eapply Forall_impl; [|exact D]. intros d. apply digit_char. lia.
    + intros K. apply digit_not in K. lia.
Qed.

Definition lchar (c : Z) : Prop := digit_in 36 c \/ c = 95 \/ c = 46 \/ c = 43 \/ c = 45.
Lemma dchar_lchar : forall u, Forall dchar u -> Forall lchar u.
Proof.
  intros u H. eapply Forall_impl; [|exact H]. intros c [D|[->|[->|[->|[->|[->| ->]]]]]]; unfold lchar; try tauto.
  - left. eapply digit_char; [|exact D]. lia.
  - left. vm_compute. reflexivity.
  - left. vm_compute. reflexivity.
Qed.
Lemma sep_lchar : forall r u w, r <= 36 -> separated r u w -> Forall lchar u.
Proof.
  intros r u w R S. eapply Forall_impl; [|eapply separated_chars; exact S]. intros c [D|D]; unfold lchar; [|tauto].
  left. eapply digit_char; eassumption.
Qed.
Lemma prefix_lchar : forall p r, radix_prefix p r -> Forall lchar p.
Proof.
  intros p r [[_ [-> | ->]]|[[_ [-> | ->]]|[_ [-> | ->]]]]; repeat (constructor; [left; vm_compute; reflexivity|]); constructor.
Qed.
Lemma lit_chars : forall st w x, literal st w x -> Forall lchar w.
Proof.
  intros st w x H. inversion H as [i iw u e I X E|i iw f fw u e I F X E|f fw u e F X E|p r u uw P S E|p r u uw P S E|u uw P E|u Q N D E]; subst.
  - apply dchar_lchar. apply Forall_app. split; [apply ichar_dchar; eapply int_chars; eassumption|eapply exp_chars; eassumption].
  - apply dchar_lchar. apply Forall_app. split; [apply ichar_dchar; eapply int_chars; eassumption|].
    constructor; [unfold dchar; tauto|]. apply Forall_app. split; [apply ichar_dchar; eapply frac_chars; eassumption|eapply exp_chars; eassumption].
  - apply dchar_lchar. constructor; [unfold dchar; tauto|]. apply Forall_app.
    split; [apply ichar_dchar; apply (frac_chars f fw); right; assumption|eapply exp_chars; eassumption].
  - apply Forall_app. split; [eapply prefix_lchar; eassumption|]. eapply (sep_lchar r); [|exact S]. apply radix_base in P. lia.
  - apply Forall_app. split; [eapply prefix_lchar; eassumption|]. apply Forall_app. split.
    + eapply (sep_lchar r); [|exact S]. apply radix_base in P. lia.
    + repeat constructor; left; vm_compute; reflexivity.
  - apply Forall_app. split; [|repeat constructor; left; vm_compute; reflexivity].
    apply dchar_lchar, ichar_dchar. eapply (int_chars st). constructor. exact P.
  - constructor; [left; vm_compute; reflexivity|]. eapply Forall_impl; [|exact D]. intros c Hc. left. eapply digit_char; [|exact Hc]. lia.
Qed.

Section Main.
Variables (id_start id_continue : Z -> bool).
Hypothesis W : words id_start id_continue.
Variable st : bool.
Let md := Mode false false st.

Lemma char_kind : forall c, lchar c -> is_digit c = false -> id_start c = false -> c = 46 \/ c = 43 \/ c = 45.
Proof.
  intros c [D|[->|H]] ND NI; [| |tauto].
  - exfalso. assert (L : letter c = true /\ 0 <= c < 128).
    { unfold digit_in, digit_of in D. unfold LexNumModel.is_digit in ND. unfold letter. rewrite ND in D.
      destruct ((97 <=? c) && (c <=? 122)) eqn:E1; [split; [reflexivity|lia]|].
      destruct ((65 <=? c) && (c <=? 90)) eqn:E2; [split; [reflexivity|lia]|]. lia. }
    destruct L as [L R]. rewrite (start_char _ _ W c) in NI; [discriminate| |exact R]. rewrite L. reflexivity.
  - exfalso. rewrite (start_char _ _ W 95) in NI; [discriminate|reflexivity|lia].
Qed.

Lemma longest_holds : forall s w r x, s = w ++ r -> literal st w x -> good id_start r ->
  (forall iw, source_int st w iw -> begins (Z.eqb 46) r = false) ->
  forall w' r' x', s = w' ++ r' -> literal st w' x' -> len w' <= len w.
Proof.
  intros s w r x E H G ND w' r' x' E' H'.
  destruct (Z.le_gt_cases (len w') (len w)) as [L|L]; [exact L|exfalso].
  assert (Q : exists c z, w' = w ++ c :: z /\ r = c :: z ++ r').
  { rewrite E in E'. clear - E' L. revert w' E' L. unfold len. induction w as [|a w IH]; intros w' E' L.
    - destruct w' as [|c z]; [cbn in L; lia|]. exists c, z. cbn [app] in *. auto.
    - destruct w' as [|a' w']; [cbn in L; lia|]. cbn [app] in E'. injection E' as <- E'. cbn [length] in L.
      destruct (IH w' E' ltac:(lia)) as (c & z & -> & ->). exists c, z. auto. }
  destruct Q as (c & z & -> & ->). destruct G as [G1 G2]. cbn [begins] in *.
  assert (LC : lchar c).
  { apply lit_chars in H'. rewrite Forall_forall in H'. apply H'. apply in_or_app. right. left. reflexivity. }
  destruct (longer _ _ _ _ _ _ H H' (char_kind c LC G1 G2)) as [-> (iw & I)].
  specialize (ND iw I). discriminate.
Qed.

(** ** What is read is a literal *)
Lemma means_dec : forall D E v, 0 <= D -> v = VNum (dec_double false D E) -> means (MNum (dec_q D E)) v.
Proof using. clear. intros D E v H ->. apply dec_double_spec. exact H. Qed.

Lemma means_radix : forall b w z, b = 2 \/ b = 8 \/ b = 16 -> w <> [] -> digits b w -> z = number_of b w ->
  z <= 2 ^ 53 -> means (MNum (inject_Z z)) (VNum (fst (strtoi w b))).
Proof using.
  clear. intros b w z B N D -> L. cbn [means]. rewrite (strtoi_radix b w B N D L).
  apply int_double_spec. apply number_bound; [lia|exact D].
Qed.

Lemma means_big : forall b w, 2 <= b <= 16 -> digits b w -> means (MBig (number_of b w)) (VBig (big_of b w)).
Proof using. clear. intros b w B D. cbn [means]. apply big_of_spec; assumption. Qed.

Definition reading (s r : list Z) (v : LexNumModel.value) : Prop :=
  exists w x, s = w ++ r /\ literal st w x /\ good id_start r /\ (fits w x -> means x v) /\
    (forall iw, source_int st w iw -> begins (Z.eqb 46) r = false).

(** After a decimal integer part *)
Lemma after_int : forall i iw i' lg s r v, source_int st i iw -> digits 10 i' -> i' <> [] ->
  (forall f, number_of 10 (i' ++ f) = number_of 10 (iw ++ f)) -> len i' <= len i ->
  (lg = false -> plain_int i iw) ->
  good id_start r -> ten_result i' s r lg v -> reading (i ++ s) r v.
Proof.
  intros i iw i' lg s r v I DI NI VI LI LG G T.
  destruct (int_nonempty _ _ _ I) as (_ & _ & DW & _).
  assert (V0 : number_of 10 i' = number_of 10 iw) by (specialize (VI []); rewrite !app_nil_r in VI; exact VI).
  destruct T as [(-> & L & _ & ->)|[(x & e & X & _ & -> & ND & V)|(f & fw & x & e & X & F & _ & -> & V)]].
  - exists (i ++ [110]), (MBig (number_of 10 iw)). split; [rewrite <- app_assoc; reflexivity|].
    split; [apply lit_big; apply LG; exact L|]. split; [exact G|]. split.
    + intros _. rewrite <- V0. apply means_big; [lia|exact DI].
    + intros jw J. exfalso. apply int_chars in J. rewrite Forall_forall in J.
      specialize (J 110 ltac:(apply in_or_app; right; left; reflexivity)). apply ichar_not in J. lia.
  - exists (i ++ x), (MNum (dec_q (number_of 10 iw) e)). split; [apply app_assoc|]. split; [apply lit_whole; assumption|].
    split; [exact G|]. split.
    + intros [L _]. apply means_dec; [apply number_bound; [lia|exact DW]|]. rewrite <- V0. apply V.
      unfold len in *. rewrite app_length in *. lia.
    + intros jw J. apply ND. apply int_chars in J. destruct x as [|c x]; [reflexivity|exfalso].
      inversion X as [|? ? ? ? ? HC]; subst. rewrite Forall_forall in J.
      specialize (J c ltac:(apply in_or_app; right; left; reflexivity)). apply ichar_not in J. lia.
  - exists (i ++ 46 :: f ++ x), (MNum (dec_q (number_of 10 (iw ++ fw)) (e - len fw))).
    split; [rewrite <- app_assoc; cbn [app]; rewrite <- app_assoc; reflexivity|].
    split; [apply lit_point; assumption|]. split; [exact G|]. split.
    + intros [L _]. destruct (frac_len _ _ F) as [_ DF].
      apply means_dec; [apply number_bound; [lia|apply Forall_app; auto]|]. rewrite <- VI. apply V.
      unfold len in *. rewrite app_length in *. lia.
    + intros jw J. exfalso. apply int_chars in J. rewrite Forall_forall in J.
      specialize (J 46 ltac:(apply in_or_app; right; left; reflexivity)). apply ichar_not in J. lia.
Qed.

Lemma plain_from : forall s dec v r, (exists c t, s = c :: t /\ c <> 48) \/ (exists t, s = 48 :: t /\ begins is_digit t = false /\ begins (Z.eqb 95) t = false) ->
  number_from id_start md false false 10 s = Some (dec, v, r) -> reading s r v.
Proof.
  intros s dec v r HS E. unfold number_from in E.
  destruct (int_loop false false 10 false false s) as [[[b w] t]|] eqn:L; [|discriminate].
  apply int_loop_sound in L; [|reflexivity|unfold base_ok; auto|discriminate].
  destruct L as (-> & B & u & -> & T). destruct T as [T|[(? & _)|(? & _)]]; [|discriminate..].
  destruct (separated_digits _ _ _ T) as [DW NW].
  apply (end_ten_sound id_start st) in E; [|exact DW|exact B|intros; contradiction].
  destruct E as (G & _ & TR).
  assert (P : plain_int u w).
  { destruct HS as [(c & t' & Q & N)|(t' & Q & N1 & N2)].
    - destruct u as [|c' u]; [inversion T|]. injection Q as -> _. apply plain_some; assumption.
    - inversion T as [c Hc|c u' w' Hc T'|c u' w' Hc T']; subst; cbn [app] in Q; injection Q as -> <-.
      + constructor.
      + exfalso. inversion T'; subst; cbn [app begins] in N1;
        match goal with H : digit_in 10 _ |- _ => apply digit_ten in H end; congruence.
      + discriminate. }
  eapply (after_int u w w false t); eauto.
  - constructor. exact P.
  - eapply separated_len; exact T.
Qed.

Lemma radix_from : forall p b t dec v r, radix_prefix p b -> number_from id_start md false false b t = Some (dec, v, r) ->
  reading (p ++ t) r v.
Proof.
  intros p b t dec v r P E. pose proof (radix_base _ _ P) as RB. unfold number_from in E.
  destruct (int_loop false false b false false t) as [[[b' w] t']|] eqn:L; [|discriminate].
  apply int_loop_sound in L; [|apply andb_false_r|unfold base_ok; tauto|discriminate].
  destruct L as (-> & B & u & -> & T). destruct T as [T|[(? & _)|(? & _)]]; [|discriminate..].
  destruct (separated_digits _ _ _ T) as [DW NW].
  assert (NOI : forall y iw, source_int st (p ++ y) iw -> False).
  { intros y iw I. apply int_chars in I. rewrite Forall_forall in I.
    destruct P as [[_ [-> | ->]]|[[_ [-> | ->]]|[_ [-> | ->]]]]; cbn [app In] in I.
    - specialize (I 98 ltac:(auto)). destruct I as [I|I]; [vm_compute in I|]; discriminate.
    - specialize (I 66 ltac:(auto)). destruct I as [I|I]; [vm_compute in I|]; discriminate.
    - specialize (I 111 ltac:(auto)). destruct I as [I|I]; [vm_compute in I|]; discriminate.
    - specialize (I 79 ltac:(auto)). destruct I as [I|I]; [vm_compute in I|]; discriminate.
    - specialize (I 120 ltac:(auto)). destruct I as [I|I]; [vm_compute in I|]; discriminate.
    - specialize (I 88 ltac:(auto)). destruct I as [I|I]; [vm_compute in I|]; discriminate. }
  apply (end_other_sound id_start st) in E; [|lia]. destruct E as (G & _ & [[-> ->]|(-> & _ & ->)]).
  - exists (p ++ u), (MNum (inject_Z (number_of b w))). split; [apply app_assoc|]. split; [apply lit_radix; assumption|].
    split; [exact G|]. split.
    + intros [_ F]. apply means_radix; auto. apply F; [|reflexivity]. left. exists p, b, u. auto.
    + intros iw I. exfalso. eapply NOI; exact I.
  - exists (p ++ u ++ [110]), (MBig (number_of b w)). split; [rewrite <- !app_assoc; reflexivity|]. split; [apply lit_radix_big; assumption|].
    split; [exact G|]. split.
    + intros _. apply means_big; [lia|exact DW].
    + intros iw I. exfalso. eapply NOI; exact I.
Qed.

Lemma octal_dec : forall w, digits 8 w \/ ~ digits 8 w.
Proof using.
  clear. intros w. destruct (Forall_dec (digit_in 8)) with (l := w); [|left; assumption|right; assumption].
  intros c. unfold digit_in. destruct (Z_lt_dec (digit_of c) 8); auto.
Qed.

Lemma legacy_from : forall t dec v r, begins is_digit t = true -> ~ octal_point (48 :: t) ->
  lex_number id_start md (48 :: t) = Some (dec, v, r) -> reading (48 :: t) r v.
Proof.
  intros t dec v r B NO E. destruct (span is_digit t) as [w u] eqn:SP.
  destruct (span_spec _ _ _ _ SP) as (-> & FW & BW).
  assert (DW : digits 10 w) by (apply digits_ten; exact FW).
  assert (NW : w <> []) by (intros ->; cbn [app] in B; congruence).
  unfold md in E. destruct (octal_dec w) as [D8|N8].
  - rewrite (way_octal id_start st w u D8 NW BW) in E.
    2:{ destruct u as [|c u]; [reflexivity|]. cbn [begins]. unfold exp_head.
        destruct ((c =? 46) || ((c =? 101) || (c =? 69))) eqn:Q; [|reflexivity].
        exfalso. apply NO. exists w, c, u. repeat split; try assumption. lia. }
    apply (end_other_sound id_start st) in E; [|lia]. destruct E as (G & NS & [[-> ->]|(_ & ? & _)]); [|discriminate].
    exists (48 :: w), (MNum (inject_Z (number_of 8 w))). split; [reflexivity|].
    split; [apply lit_octal; auto|]. split; [exact G|]. split.
    + intros [_ F]. apply means_radix; auto. apply F; [|reflexivity]. right. exists w. auto.
    + intros iw I. exfalso. inversion I as [u' w' P|w' _ D N]; subst; [|contradiction].
      inversion P; subst; contradiction.
  - destruct (way_nonoctal id_start st w u DW N8 BW) as (i & HI & Q). rewrite Q in E.
    assert (DI : digits 10 i /\ i <> []).
    { destruct HI as [-> | ->]; [auto|]. split; [|discriminate]. constructor; [vm_compute; reflexivity|exact DW]. }
    apply (end_ten_sound id_start st) in E; [|apply DI|exact BW|intros; tauto]. destruct E as (G & NS & TR).
    apply (after_int (48 :: w) (48 :: w) i true u r v); try tauto.
    + apply int_nonoctal; auto.
    + intros f. destruct HI as [-> | ->]; [|reflexivity]. cbn [app]. symmetry. apply number_zero.
    + destruct HI as [-> | ->]; unfold len; cbn [length]; lia.
    + discriminate.
Qed.

Theorem source_sound : forall s dec v r, number_head s -> ~ octal_point s ->
  lex_number id_start md s = Some (dec, v, r) -> reading s r v.
Proof.
  intros s dec v r HS NO E. destruct HS as [(c & t & -> & C)|(c & t & -> & C)].
  - destruct (Z.eq_dec c 48) as [->|NC].
    2:{ assert (c <> 46) by (intros ->; discriminate). unfold md in E. rewrite way_plain in E by assumption.
        eapply plain_from; [|exact E]. left. exists c, t. auto. }
    destruct (begins is_digit t) eqn:BT; [eapply legacy_from; eassumption|].
    destruct t as [|d t].
    { change (number_from id_start md false false 10 [48] = Some (dec, v, r)) in E.
      eapply plain_from; [|exact E]. right. exists []. auto. }
    destruct (Z.eq_dec d 98) as [->|]; [eapply (radix_from [48; 98] 2); [left; auto|exact E]|].
    destruct (Z.eq_dec d 66) as [->|]; [eapply (radix_from [48; 66] 2); [left; auto|exact E]|].
    destruct (Z.eq_dec d 111) as [->|]; [eapply (radix_from [48; 111] 8); [right; left; auto|exact E]|].
    destruct (Z.eq_dec d 79) as [->|]; [eapply (radix_from [48; 79] 8); [right; left; auto|exact E]|].
    destruct (Z.eq_dec d 120) as [->|]; [eapply (radix_from [48; 120] 16); [right; right; auto|exact E]|].
    destruct (Z.eq_dec d 88) as [->|]; [eapply (radix_from [48; 88] 16); [right; right; auto|exact E]|].
    cbn [begins] in BT. destruct (Z.eq_dec d 95) as [->|]; [discriminate|].
    unfold md in E. rewrite way_zero in E.
    2:{ intros c u Q. injection Q as <- <-. repeat split; assumption. }
    eapply plain_from; [|exact E]. right. exists (d :: t). cbn [begins]. split; [reflexivity|]. split; [exact BT|].
    apply Z.eqb_neq. auto.
  - unfold md in E. rewrite way_dot in E. apply (end_ten_sound id_start st) in E; [|constructor|reflexivity|intros; exists c, t; auto].
    destruct E as (G & _ & [(_ & _ & ? & _)|[(x & e & _ & ? & _)|(f & fw & x & e & X & F & NF & Q & V)]]); [contradiction..|].
    cbn [app] in NF. destruct F as [[_ ->]|F]; [contradiction|].
    destruct (separated_digits _ _ _ F) as [DF _].
    exists (46 :: f ++ x), (MNum (dec_q (number_of 10 fw) (e - len fw))). split; [rewrite Q; cbn [app]; rewrite <- app_assoc; reflexivity|].
    split; [apply lit_fraction; assumption|]. split; [exact G|]. split.
    + intros [L _]. apply means_dec; [apply number_bound; [lia|exact DF]|]. apply V. exact L.
    + intros iw I. exfalso. apply int_chars in I. inversion I as [|? ? I1 _]; subst. apply ichar_not in I1. lia.
Qed.

(** ** Every literal is read *)
Lemma plain_way : forall i iw t, plain_int i iw -> stop_at 10 t ->
  (i = [48] -> forall c u, t = c :: u -> c <> 98 /\ c <> 66 /\ c <> 111 /\ c <> 79 /\ c <> 120 /\ c <> 88 /\ is_digit c = false /\ c <> 95) ->
  lex_number id_start md (i ++ t) = int_end id_start md false false 10 iw t.
Proof.
  intros i iw t P ST HZ.
  assert (N : lex_number id_start md (i ++ t) = number_from id_start md false false 10 (i ++ t)).
  { inversion P as [|c u w S NC]; subst.
    - cbn [app]. unfold md. apply way_zero. exact (HZ eq_refl).
    - cbn [app]. unfold md. apply way_plain; [|exact NC]. apply separated_chars in S. inversion S as [|? ? S1 _]; subst.
      apply (ichar_not c). exact S1. }
  rewrite N. unfold number_from.
  assert (S : separated 10 i iw).
  { inversion P; subst; [|assumption]. constructor. vm_compute. reflexivity. }
  rewrite (int_loop_complete false false 10 t eq_refl ltac:(unfold base_ok; auto) ST i iw S); [reflexivity|discriminate].
Qed.

Lemma head_facts : forall x e r, source_exp x e -> good id_start r ->
  stop_at 10 (x ++ r) /\
  (forall c u, x ++ r = c :: u -> c <> 98 /\ c <> 66 /\ c <> 111 /\ c <> 79 /\ c <> 120 /\ c <> 88 /\ is_digit c = false /\ c <> 95).
Proof.
  intros x e r X G. inversion X as [|d sg neg v vw HD SG S]; subst.
  - cbn [app]. split; [eapply good_stop; eassumption|]. destruct (good_facts _ _ W r G) as (_ & _ & _ & _ & K). exact K.
  - cbn [app]. split; [destruct HD as [-> | ->]; split; reflexivity|]. intros c u Q. injection Q as <- _.
    destruct HD as [-> | ->]; repeat split; try reflexivity; discriminate.
Qed.

(** The way of an integer part, with what follows it *)
Lemma int_way : forall i iw t, source_int st i iw -> stop_at 10 t ->
  (forall c u, t = c :: u -> c <> 98 /\ c <> 66 /\ c <> 111 /\ c <> 79 /\ c <> 120 /\ c <> 88 /\ is_digit c = false /\ c <> 95) ->
  exists ns lg i', lex_number id_start md (i ++ t) = int_end id_start md ns lg 10 i' t /\
    digits 10 i' /\ i' <> [] /\ (forall f, number_of 10 (i' ++ f) = number_of 10 (iw ++ f)) /\ len i' <= len i /\
    ns && st = false /\ (ns = true -> exists u, i = 48 :: u /\ u <> [] /\ digits 10 u).
Proof.
  intros i iw t I ST HZ. destruct (int_nonempty _ _ _ I) as (_ & NW & DW & LW).
  inversion I as [u w P|w SS D N]; subst.
  - exists false, false, iw. split; [apply plain_way; auto|]. repeat split; try assumption. discriminate.
  - destruct ST as [S1 S2]. destruct (way_nonoctal id_start false w t D N S1) as (i' & HI & Q).
    exists true, true, i'. cbn [app]. split; [exact Q|].
    split; [destruct HI as [-> | ->]; assumption|].
    assert (NE : w <> []) by (intros ->; apply N; constructor).
    split; [destruct HI as [-> | ->]; [exact NE|discriminate]|].
    split; [intros f; destruct HI as [-> | ->]; [cbn [app]; symmetry; apply number_zero|reflexivity]|].
    split; [destruct HI as [-> | ->]; unfold len; cbn [length]; lia|].
    split; [reflexivity|]. intros _. exists w. auto.
Qed.

Theorem source_complete : forall w x r, literal st w x -> good id_start r ->
  (forall iw, source_int st w iw -> begins (Z.eqb 46) r = false) ->
  ~ octal_point (w ++ r) -> ~ legacy_separated w ->
  exists dec v, lex_number id_start md (w ++ r) = Some (dec, v, r) /\ (fits w x -> means x v).
Proof.
  intros w x r H G ND NO NS.
  inversion H as [i iw u e I X E|i iw f fw u e I F X E|f fw u e F X E|p b u uw P S E|p b u uw P S E|u uw P E|u Q N D E]; subst.
  - rewrite <- app_assoc. destruct (head_facts u e r X G) as [ST HF].
    destruct (int_way i iw (u ++ r) I ST HF) as (ns & lg & i' & Q & DI & NI & VI & LI & NSS & SEP).
    destruct (int_nonempty _ _ _ I) as (_ & _ & DW & _).
    destruct (end_ten_whole id_start id_continue W st ns lg i' u e r DI NI X G NSS) as (v & EV & V).
    { intros T K. destruct (SEP T) as (y & -> & NY & DY). apply NS. exists y, u. auto. }
    { intros ->. rewrite app_nil_r in ND. apply (ND iw). exact I. }
    exists true, v. split; [rewrite Q; exact EV|]. intros [L _].
    apply means_dec; [apply number_bound; [lia|exact DW]|].
    specialize (VI []). rewrite !app_nil_r in VI. rewrite <- VI. apply V. unfold len in *. rewrite app_length in *. lia.
  - destruct (int_way i iw (46 :: f ++ u ++ r) I) as (ns & lg & i' & Q & DI & NI & VI & LI & NSS & SEP).
    { split; reflexivity. }
    { intros c y Q. injection Q as <- _. repeat split; try reflexivity; discriminate. }
    destruct (int_nonempty _ _ _ I) as (_ & _ & DW & _).
    destruct (end_ten_point id_start id_continue W st ns lg i' f fw u e r DI) as (v & EV & V); try assumption.
    { intros K. apply app_eq_nil in K. tauto. }
    { intros T K. destruct (SEP T) as (y & -> & NY & DY). apply NS. exists y, (46 :: f ++ u).
      repeat split; try assumption. right. exact K. }
    exists true, v. split.
    + rewrite <- app_assoc. cbn [app]. rewrite <- app_assoc. rewrite Q. exact EV.
    + intros [L _]. destruct (frac_len _ _ F) as [_ DF].
      apply means_dec; [apply number_bound; [lia|apply Forall_app; auto]|]. rewrite <- VI. apply V.
      unfold len in *. rewrite app_length in *. lia.
  - destruct (separated_digits _ _ _ F) as [DF NF].
    destruct (end_ten_point id_start id_continue W st false false [] f fw u e r) as (v & EV & V); try assumption; try reflexivity.
    { constructor. }
    { right. exact F. }
    { discriminate. }
    exists true, v. split.
    + cbn [app]. unfold md. rewrite way_dot. rewrite <- app_assoc. exact EV.
    + intros [L _]. apply means_dec; [apply number_bound; [lia|exact DF]|]. apply V. exact L.
  - pose proof (radix_base _ _ P) as RB. destruct (separated_digits _ _ _ S) as [DW NW].
    exists false, (VNum (fst (strtoi uw b))). split.
    + rewrite <- app_assoc. unfold md. rewrite (way_radix id_start st p b (u ++ r) P). unfold number_from.
      destruct (good_facts _ _ W r G) as (GB & G95 & _).
      rewrite (int_loop_complete false false b r (andb_false_r _) ltac:(unfold base_ok; tauto)
        (conj (GB b ltac:(unfold base_ok; tauto)) G95) u uw S); [|discriminate].
      apply end_other with (id_continue := id_continue); [exact W|lia|exact G|reflexivity].
    + intros [_ FT]. apply means_radix; auto. apply FT; [|reflexivity]. left. exists p, b, u. auto.
  - pose proof (radix_base _ _ P) as RB. destruct (separated_digits _ _ _ S) as [DW NW].
    exists (b =? 10), (VBig (big_of b uw)). split.
    + rewrite <- !app_assoc. unfold md. rewrite (way_radix id_start st p b (u ++ [110] ++ r) P). unfold number_from.
      rewrite (int_loop_complete false false b ([110] ++ r) (andb_false_r _) ltac:(unfold base_ok; tauto)) with (w := uw);
        [|split; [destruct RB as [->|[-> | ->]]; reflexivity|reflexivity]|exact S|discriminate].
      cbn [app]. apply end_big; [exact G|reflexivity].
    + intros _. apply means_big; [lia|exact DW].
  - assert (DW : digits 10 uw) by (eapply (int_nonempty st); constructor; exact P).
    exists true, (VBig (big_of 10 uw)). split.
    + rewrite <- app_assoc. rewrite (plain_way u uw ([110] ++ r) P).
      * cbn [app]. exact (end_big id_start st false 10 uw r G eq_refl).
      * split; reflexivity.
      * intros _ c y Q. injection Q as <- _. repeat split; try reflexivity; discriminate.
    + intros _. apply means_big; [lia|exact DW].
  - exists false, (VNum (fst (strtoi u 8))). split.
    + cbn [app]. unfold md. destruct G as [G1 G2]. rewrite (way_octal id_start false u r D N G1).
      * apply end_other with (id_continue := id_continue); [exact W|lia|split; assumption|reflexivity].
      * destruct r as [|c r]; [reflexivity|]. cbn [begins]. unfold exp_head.
        destruct ((c =? 46) || ((c =? 101) || (c =? 69))) eqn:K; [|reflexivity].
        exfalso. apply NO. exists u, c, r. repeat split; try assumption. lia.
    + intros [_ FT]. apply means_radix; auto. apply FT; [|reflexivity]. right. exists u. auto.
Qed.
End Main.
