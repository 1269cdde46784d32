(** Proofs about resolving exports. *)
From Coq Require Import List Bool Arith Lia Permutation Sorting.
From Verif Require Import SortModel SortSpec SortProofs ResModel ResSpec.
Import ListNotations.

Section Proofs.
Variable P : modules.

Notation means := (means P).
Notation own := (own P).

Lemma node_eqb_eq a b : node_eqb a b = true <-> a = b.
Proof.
  destruct a as [a1 a2], b as [b1 b2]. unfold node_eqb. cbn [fst snd].
  rewrite andb_true_iff, !Nat.eqb_eq. split; [intros [-> ->]; auto|intros [= -> ->]; auto].
Qed.

Lemma seen_in v S : existsb (node_eqb v) S = true <-> In v S.
Proof.
  rewrite existsb_exists. split.
  - intros (x & Hx & E). apply node_eqb_eq in E. now subst.
  - intros H. exists v. split; auto. now apply node_eqb_eq.
Qed.
Lemma seen_nin v S : existsb (node_eqb v) S = false <-> ~ In v S.
Proof. rewrite <- seen_in. destruct (existsb _ S); split; congruence. Qed.

Lemma binding_eqb_eq a b : binding_eqb a b = true <-> a = b.
Proof.
  destruct a as [[a1 a2]|], b as [[b1 b2]|]; cbn; try (split; congruence).
  rewrite andb_true_iff, Nat.eqb_eq.
  destruct a2 as [x|], b2 as [y|]; cbn; rewrite ?Nat.eqb_eq; split; intros H;
    try (destruct H; congruence); try congruence; inversion H; auto.
Qed.

(** ** A binding that is found is one the name stands for *)
Definition sound (m n : nat) (v : rres) (rb : option binding) : Prop :=
  match v with
  | RFalse => True
  | RTrue => exists b, rb = Some b /\ means m n b
  | RAmbig => (exists b, rb = Some b /\ means m n b) /\ ambiguous P m n
  end.

Lemma star_sound m n (call : nat -> seen -> option binding -> answer) :
  (forall t, ~ own m n t) -> n <> dflt P ->
  (forall r S rb v S' rb', call r S rb = Some (v, S', rb') -> sound r n v rb') ->
  forall l S rb srb res v S' rb', (forall r, In r l -> In r (stars P m)) ->
  (res = true -> exists b, rb = Some b /\ means m n b) ->
  star_loop call l S rb srb res = Some (v, S', rb') -> sound m n v rb'.
Proof.
  intros Hn Hd Hc l. induction l as [|r l IH]; intros S rb srb res v S' rb' Hl Hres; cbn [star_loop].
  - intros [= <- <- <-]. destruct res; cbn; auto.
  - destruct (call r S srb) as [[[w S1] srb1]|] eqn:E; [|discriminate].
    apply Hc in E.
    assert (Hs : truthy w = true -> exists b, srb1 = Some b /\ means m n b).
    { intros Hw. assert (Hb : exists b, srb1 = Some b /\ means r n b).
      { destruct w; cbn in *; [discriminate|auto|tauto]. }
      destruct Hb as (b & -> & Hb). exists b. split; auto. apply means_star with r; auto.
      apply Hl; now left. }
    assert (Hl' : forall r0, In r0 l -> In r0 (stars P m)) by (intros; apply Hl; now right).
    destruct (truthy w) eqn:Hw.
    + destruct res.
      * destruct (binding_eqb srb1 rb) eqn:Eb; cbn [negb].
        -- intros H. exact (IH _ _ _ _ _ _ _ Hl' Hres H).
        -- intros [= <- <- <-]. cbn. destruct (Hres eq_refl) as (b & -> & Hb).
           destruct (Hs eq_refl) as (b' & -> & Hb'). split; [eauto|].
           exists b, b'. split; auto. split; auto. intros ->.
           assert (binding_eqb (Some b') (Some b') = true) by now apply binding_eqb_eq. congruence.
      * intros H. refine (IH _ _ _ _ _ _ _ Hl' _ H). intros _. auto.
    + intros H. exact (IH _ _ _ _ _ _ _ Hl' Hres H).
Qed.

Lemma resolve_sound : forall f m n S rb v S' rb',
  resolve P f m n S rb = Some (v, S', rb') -> sound m n v rb'.
Proof.
  induction f as [|f IH]; intros m n S rb v S' rb'; cbn [resolve].
  - destruct (existsb _ S); [|discriminate]. intros [= <- <- <-]. exact I.
  - destruct (existsb _ S); [intros [= <- <- <-]; exact I|].
    destruct (lookup P m n) as [[ln|r i|r]|] eqn:E.
    + intros [= <- <- <-]. cbn. exists (m, Some ln). split; auto. now apply means_local.
    + intros H. apply IH in H. destruct v; cbn in *; auto.
      * destruct H as (b & -> & Hb). exists b. split; auto. eapply means_indirect; eauto.
      * destruct H as ((b & -> & Hb) & (b1 & b2 & H1 & H2 & H3)). split.
        -- exists b. split; auto. eapply means_indirect; eauto.
        -- exists b1, b2. repeat split; auto; eapply means_indirect; eauto.
    + intros [= <- <- <-]. cbn. exists (r, None). split; auto. now apply means_namespace.
    + destruct (Nat.eqb_spec n (dflt P)) as [Hd|Hd]; [intros [= <- <- <-]; exact I|].
      intros H. refine (star_sound m n _ _ Hd _ _ _ _ _ _ _ _ _ (fun r Hr => Hr) _ H).
      * unfold ResSpec.own. intros t Ht. congruence.
      * intros r S0 rb0 v0 S0' rb0' Hc. exact (IH _ _ _ _ _ _ _ Hc).
      * discriminate.
Qed.

(** ** A name that is not found stands for nothing *)
Definition succ (v w : nat * nat) : Prop :=
  own (fst v) (snd v) (Indirect (fst w) (snd w)) \/
  ((forall t, ~ own (fst v) (snd v) t) /\ snd v <> dflt P /\ In (fst w) (stars P (fst v)) /\ snd w = snd v).
Definition ending (v : nat * nat) : Prop :=
  (exists ln, own (fst v) (snd v) (Local ln)) \/ (exists r, own (fst v) (snd v) (Namespace r)).
Definition through (S S' : seen) : Prop :=
  forall v, In v S' -> ~ In v S -> ~ ending v /\ forall w, succ v w -> In w S'.

Lemma node_dec (v : nat * nat) S : {In v S} + {~ In v S}.
Proof. apply in_dec. intros [a b] [c d]. destruct (Nat.eq_dec a c), (Nat.eq_dec b d); subst; auto; right; congruence. Qed.

Lemma through_trans S S1 S2 : incl S1 S2 -> through S S1 -> through S1 S2 -> through S S2.
Proof.
  intros Hi H1 H2 v Hv Hn. destruct (node_dec v S1) as [H|H].
  - destruct (H1 v H Hn) as [A B]. split; [exact A|]. intros w Hw. apply Hi; auto.
  - now apply H2.
Qed.

Lemma star_false n (call : nat -> seen -> option binding -> answer) :
  (forall r S rb S' rb', call r S rb = Some (RFalse, S', rb') ->
     incl S S' /\ In (r, n) S' /\ through S S') ->
  forall l S rb srb res S' rb',
  star_loop call l S rb srb res = Some (RFalse, S', rb') ->
  res = false /\ incl S S' /\ (forall r, In r l -> In (r, n) S') /\ through S S'.
Proof.
  intros Hc l. induction l as [|r l IH]; intros S rb srb res S' rb'; cbn [star_loop].
  - destruct res; [discriminate|]. intros [= <- <-]. repeat split; auto using incl_refl; try easy;
    intros; contradiction.
  - destruct (call r S srb) as [[[w S1] srb1]|] eqn:E; [|discriminate].
    destruct w; cbn [truthy].
    + intros H. apply IH in H. destruct H as (-> & Hi & Hl & Ht). apply Hc in E.
      destruct E as (Ei & Er & Et). split; auto. split; [eapply incl_tran; eauto|]. split.
      * intros x [<- |Hx]; auto.
      * eapply through_trans; eauto.
    + destruct res; [destruct (negb _)|]; try discriminate; intros H; apply IH in H; destruct H; discriminate.
    + destruct res; [destruct (negb _)|]; try discriminate; intros H; apply IH in H; destruct H; discriminate.
Qed.

Lemma through_add S S' v :
  through (S ++ [v]) S' -> ~ ending v -> (forall w, succ v w -> In w S') -> through S S'.
Proof.
  intros H He Hs x Hx Hn. destruct (node_dec x [v]) as [[<- |[]]|Hv]; auto.
  apply H; auto. rewrite in_app_iff. tauto.
Qed.

Lemma resolve_false : forall f m n S rb S' rb',
  resolve P f m n S rb = Some (RFalse, S', rb') ->
  incl S S' /\ In (m, n) S' /\ through S S'.
Proof.
  induction f as [|f IH]; intros m n S rb S' rb'; cbn [resolve].
  - destruct (existsb _ S) eqn:E; [|discriminate]. intros [= <- <-]. apply seen_in in E.
    split; [apply incl_refl|]. split; auto. intros v H1 H2. contradiction.
  - destruct (existsb _ S) eqn:E.
    { intros [= <- <-]. apply seen_in in E. split; [apply incl_refl|]. split; auto. intros v H1 H2. contradiction. }
    destruct (lookup P m n) as [[ln|r i|r]|] eqn:El; try discriminate.
    + intros H. apply IH in H. destruct H as (Hi & Hr & Ht).
      split; [intros x Hx; apply Hi, in_app_iff; now left|].
      split; [apply Hi, in_app_iff; right; now left|].
      apply (through_add _ _ _ Ht).
      * intros [(l & Hl)|(r' & Hl)]; unfold ResSpec.own in Hl; cbn in Hl; congruence.
      * intros [a b] [Hw|(Hw & _)]; unfold ResSpec.own in Hw; cbn in Hw.
        -- rewrite El in Hw. inversion Hw; subst; auto.
        -- destruct (Hw _ El).
    + assert (Hno : forall t, ~ own m n t) by (unfold ResSpec.own; intros t Ht; congruence).
      destruct (Nat.eqb_spec n (dflt P)) as [Hd|Hd].
      * intros [= <- <-]. split; [intros x Hx; apply in_app_iff; now left|].
        split; [apply in_app_iff; right; now left|].
        apply (through_add _ _ (m, n)).
        -- intros v H1 H2. contradiction.
        -- intros [(l & Hl)|(r' & Hl)]; eapply Hno; eauto.
        -- intros w [Hw|(_ & Hw & _)]; [destruct (Hno _ Hw)|]. cbn in Hw. congruence.
      * intros H. apply (star_false n) in H.
        -- destruct H as (_ & Hi & Hl & Ht).
           split; [intros x Hx; apply Hi, in_app_iff; now left|].
           split; [apply Hi, in_app_iff; right; now left|].
           apply (through_add _ _ _ Ht).
           ++ intros [(l & Hl')|(r' & Hl')]; eapply Hno; eauto.
           ++ intros [a b] [Hw|(_ & _ & Hw & Hb)]; [destruct (Hno _ Hw)|]. cbn in *. subst. auto.
        -- intros r S0 rb0 S0' rb0' Hc. eapply IH; eauto.
Qed.

Lemma resolve_unknown f m n S' rb' :
  resolve P f m n [] None = Some (RFalse, S', rb') -> unknown P m n.
Proof.
  intros H. apply resolve_false in H. destruct H as (_ & Hin & Ht).
  intros b Hb. revert Hin. induction Hb as [m n ln H|m n r H|m n r i b H _ IH|m n r b H Hd Hs _ IH]; intros Hin;
    destruct (Ht _ Hin (fun H => H)) as [He Hsucc].
  - apply He. left. exists ln. exact H.
  - apply He. right. exists r. exact H.
  - apply IH, Hsucc. left. exact H.
  - apply IH, Hsucc. right. auto.
Qed.

(** ** The search ends *)
Section Total.
Variable U : list nat.
Hypothesis HU : closed P U.

Lemma lookup_in m n t : lookup P m n = Some t -> In (n, t) (entries P m).
Proof.
  unfold lookup. destruct (find _ _) as [[a b]|] eqn:E; [|discriminate]. intros [= ->].
  apply find_some in E. destruct E as [E1 E2]. cbn in E2. apply Nat.eqb_eq in E2. now subst.
Qed.

Lemma asked_in m n r i : In m U -> In (n, Indirect r i) (entries P m) -> In i (asked P U).
Proof.
  intros Hm Hi. unfold asked. apply in_flat_map. exists m. split; auto.
  apply in_flat_map. exists (n, Indirect r i). split; auto. now left.
Qed.

Variable n0 : nat.
Let nodes : list (nat * nat) := list_prod U (n0 :: asked P U).

Definition tidy (S : seen) : Prop := NoDup S /\ incl S nodes.

Lemma tidy_add S v : tidy S -> In v nodes -> ~ In v S -> tidy (S ++ [v]).
Proof.
  intros [H1 H2] Hv Hn. split.
  - apply (Permutation_NoDup (Permutation_cons_append S v)). now constructor.
  - intros x Hx. apply in_app_iff in Hx. destruct Hx as [Hx|[<- |[]]]; auto.
Qed.

Lemma star_total (call : nat -> seen -> option binding -> answer) k :
  (forall r S rb, In r U -> tidy S -> length nodes - length S <= k -> exists v S' rb', call r S rb = Some (v, S', rb') /\ tidy S' /\ length S <= length S') ->
  forall l S rb srb res, (forall r, In r l -> In r U) -> tidy S -> length nodes - length S <= k ->
  exists v S' rb', star_loop call l S rb srb res = Some (v, S', rb') /\ tidy S' /\ length S <= length S'.
Proof.
  intros Hc l. induction l as [|r l IH]; intros S rb srb res Hl HS Hk; cbn [star_loop].
  - eauto 8.
  - destruct (Hc r S srb) as (v & S1 & rb1 & -> & HS1 & HL1); auto. { apply Hl; now left. }
    assert (Hk1 : length nodes - length S1 <= k) by lia.
    assert (Hl1 : forall r0, In r0 l -> In r0 U) by (intros; apply Hl; now right).
    destruct (truthy v); [destruct res; [destruct (negb _)|]|].
    + eauto 8.
    + destruct (IH S1 rb rb1 true Hl1 HS1 Hk1) as (v2 & S2 & rb2 & E & A & B). rewrite E. exists v2, S2, rb2. repeat split; auto; try apply A. lia.
    + destruct (IH S1 rb1 rb1 true Hl1 HS1 Hk1) as (v2 & S2 & rb2 & E & A & B). rewrite E. exists v2, S2, rb2. repeat split; auto; try apply A. lia.
    + destruct (IH S1 rb rb1 res Hl1 HS1 Hk1) as (v2 & S2 & rb2 & E & A & B). rewrite E. exists v2, S2, rb2. repeat split; auto; try apply A. lia.
Qed.

Lemma resolve_total : forall f m n S rb, In m U -> In n (n0 :: asked P U) -> tidy S ->
  length nodes - length S <= f ->
  exists v S' rb', resolve P f m n S rb = Some (v, S', rb') /\ tidy S' /\ length S <= length S'.
Proof.
  induction f as [|f IH]; intros m n S rb Hm Hn HS Hf; cbn [resolve];
    (destruct (existsb (node_eqb (m, n)) S) eqn:E; [exists RFalse, S, rb; auto|]);
    apply seen_nin in E; assert (Hv : In (m, n) nodes) by (now apply in_prod);
    pose proof (tidy_add S (m, n) HS Hv E) as HS1;
    pose proof (NoDup_incl_length (proj1 HS1) (proj2 HS1)) as Hlen;
    rewrite app_length in Hlen; cbn [length] in Hlen.
  - exfalso. lia.
  - assert (Hf1 : length nodes - length (S ++ [(m, n)]) <= f) by (rewrite app_length; cbn [length]; lia).
    assert (Hs1 : length S <= length (S ++ [(m, n)])) by (rewrite app_length; lia).
    destruct (lookup P m n) as [[ln|r i|r]|] eqn:El; eauto 8.
    + apply lookup_in in El. destruct (IH r i (S ++ [(m, n)]) rb) as (v & S' & rb' & A & B & C); auto.
      * apply (proj2 (HU m Hm)) with n i. exact El.
      * right. eapply asked_in; eauto.
      * exists v, S', rb'. split; [exact A|]. split; [exact B|lia].
    + destruct (Nat.eqb n (dflt P)); eauto 8.
      destruct (star_total (fun r S srb => resolve P f r n S srb) f) with (l := stars P m) (S := S ++ [(m, n)]) (rb := rb) (srb := @None binding) (res := false)
        as (v & S' & rb' & A & B & C); auto.
      * apply (proj1 (HU m Hm)).
      * exists v, S', rb'. split; [exact A|]. split; [exact B|lia].
Qed.
End Total.

Lemma resolve_export_total U f m n : closed P U -> In m U -> room P U <= f ->
  exists v rb, resolve_export P f m n = Some (v, rb).
Proof.
  intros HU Hm Hf.
  destruct (resolve_total U HU n f m n [] None Hm) as (v & S' & rb & E & _).
  - now left.
  - split; [constructor|intros x []].
  - rewrite prod_length. cbn [length]. unfold room in Hf. lia.
  - exists v, rb. unfold resolve_export. now rewrite E.
Qed.

(** The answers of rjs_module_resolve_export. *)
Lemma resolve_export_correct U f m n : closed P U -> In m U -> room P U <= f ->
  exists v rb, resolve_export P f m n = Some (v, rb) /\
    (v = RFalse <-> unknown P m n) /\
    (forall b, unique P m n b -> v = RTrue /\ rb = Some b) /\
    (v = RTrue -> exists b, rb = Some b /\ means m n b) /\
    (v = RAmbig -> ambiguous P m n).
Proof.
  intros HU Hm Hf. destruct (resolve_export_total U f m n HU Hm Hf) as (v & rb & E).
  exists v, rb. split; [exact E|]. unfold resolve_export in E.
  destruct (resolve P f m n [] None) as [[[v' S'] rb']|] eqn:R; [|discriminate].
  inversion E; subst v' rb'. clear E.
  pose proof (resolve_sound _ _ _ _ _ _ _ _ R) as Hs.
  assert (Hf1 : v = RFalse -> unknown P m n) by (intros ->; eapply resolve_unknown; eauto).
  split; [split; [exact Hf1|]|split; [|split]].
  - intros Hu. destruct v; auto; cbn in Hs.
    + destruct Hs as (b & _ & Hb). destruct (Hu b Hb).
    + destruct Hs as ((b & _ & Hb) & _). destruct (Hu b Hb).
  - intros b [Hb Hu]. destruct v; cbn in Hs.
    + destruct (Hf1 eq_refl b Hb).
    + destruct Hs as (b' & -> & Hb'). apply Hu in Hb'. now subst.
    + destruct Hs as (_ & (b1 & b2 & H1 & H2 & H3)). apply Hu in H1, H2. congruence.
  - intros ->. exact Hs.
  - intros ->. apply Hs.
Qed.

(** ** module_init_env *)
Lemma check_names_correct U f l : closed P U -> room P U <= f -> (forall m n, In (m, n) l -> In m U) ->
  exists b, check_names P f l = Some b /\
    (b = true -> forall m n, In (m, n) l -> ~ unknown P m n) /\
    ((forall m n, In (m, n) l -> exists b, unique P m n b) -> b = true).
Proof.
  intros HU Hf. induction l as [|[m n] l IH]; intros Hl; cbn [check_names].
  - exists true. split; [auto|]. split; [intros _ m n []|auto].
  - destruct (resolve_export_correct U f m n HU) as (v & rb & -> & Hx & Huq & Ht & Ha); auto.
    { apply (Hl m n). now left. }
    destruct IH as (b & E & H1 & H2). { intros a c H. apply (Hl a c). now right. }
    destruct v.
    + exists false. split; auto. split; [discriminate|]. intros H.
      destruct (H m n) as (c & Hc); [now left|]. apply Huq in Hc. destruct Hc. discriminate.
    + exists b. split; auto. split.
      * intros Hb a c [[= <- <-]|H]; [|now apply H1].
        intros Hu. destruct (Ht eq_refl) as (d & _ & Hd). exact (Hu d Hd).
      * intros H. apply H2. intros a c Hac. apply H. now right.
    + exists false. split; auto. split; [discriminate|]. intros H.
      destruct (H m n) as (c & Hc); [now left|]. apply Huq in Hc. destruct Hc. discriminate.
Qed.

Lemma init_env_correct U f m : closed P U -> room P U <= f -> In m U ->
  (forall r n, In (r, n) (imported P m) -> In r U) ->
  exists b, init_env P f m = Some b /\
    (b = true -> forall r n, In (r, n) (indirect P m ++ imported P m) -> ~ unknown P r n) /\
    ((forall r n, In (r, n) (indirect P m ++ imported P m) -> exists b, unique P r n b) -> b = true).
Proof.
  intros HU Hf Hm Hi. unfold init_env.
  destruct (check_names_correct U f (indirect P m) HU Hf) as (b1 & -> & A1 & A2).
  { intros a c H. unfold indirect in H. apply in_flat_map in H. destruct H as ([x t] & _ & H).
    cbn in H. destruct t; destruct H as [[= <- <-]|[]] || destruct H; exact Hm. }
  destruct (check_names_correct U f (imported P m) HU Hf Hi) as (b2 & E2 & B1 & B2).
  destruct b1.
  - rewrite E2. exists b2. split; auto. split.
    + intros Hb r n H. apply in_app_iff in H. destruct H; auto.
    + intros H. apply B2. intros r n Hr. apply H, in_app_iff. now right.
  - exists false. split; auto. split; [discriminate|]. intros H. apply A2. intros r n Hr. apply H, in_app_iff. now left.
Qed.

(** ** Names of the namespace object *)
Lemma nat_in x l : existsb (Nat.eqb x) l = true <-> In x l.
Proof.
  rewrite existsb_exists. split.
  - intros (y & Hy & E). apply Nat.eqb_eq in E. now subst.
  - intros H. exists x. split; auto. apply Nat.eqb_refl.
Qed.
Lemma nat_nin x l : existsb (Nat.eqb x) l = false <-> ~ In x l.
Proof. rewrite <- nat_in. destruct (existsb _ l); split; congruence. Qed.

Lemma add_names_spec l : forall L, 
  (forall n, In n (add_names l L) <-> In n L \/ In n (map fst l)) /\ (NoDup L -> NoDup (add_names l L)).
Proof.
  induction l as [|[x t] l IH]; intros L; cbn [add_names map fst].
  - split; [intros n; cbn; tauto|auto].
  - destruct (existsb (Nat.eqb x) L) eqn:E.
    + apply nat_in in E. destruct (IH L) as [A B]. split; auto.
      intros n. rewrite A. cbn [In]. split; [tauto|]. intros [H|[<- |H]]; auto.
    + apply nat_nin in E. destruct (IH (L ++ [x])) as [A B]. split.
      * intros n. rewrite A, in_app_iff. cbn [In]. tauto.
      * intros H. apply B. apply (Permutation_NoDup (Permutation_cons_append L x)). now constructor.
Qed.

Inductive brings (m : nat) : nat -> Prop :=
| brings_own : brings m m
| brings_star r x : In r (stars P m) -> brings r x -> brings m x.

Definition whole (L V V' L' : list nat) : Prop :=
  incl L L' /\ incl V V' /\ (NoDup L -> NoDup L') /\
  forall v, In v V' -> ~ In v V -> incl (map fst (entries P v)) L' /\ incl (stars P v) V'.

Lemma whole_trans L V L1 V1 L2 V2 : whole L V V1 L1 -> whole L1 V1 V2 L2 -> whole L V V2 L2.
Proof.
  intros (a & b & c & d) (a' & b' & c' & d').
  split; [eapply incl_tran; eauto|]. split; [eapply incl_tran; eauto|]. split; [auto|].
  intros v H1 H2. destruct (in_dec Nat.eq_dec v V1) as [H|H]; auto.
  destruct (d v H H2). split; eapply incl_tran; eauto.
Qed.

Lemma star_names_spec m (call : nat -> list nat -> list nat -> option (list nat * list nat)) :
  (forall r L V L' V', call r L V = Some (L', V') ->
     whole L V V' L' /\ In r V' /\
     forall n, In n L' -> In n L \/ exists x, brings r x /\ In n (map fst (entries P x))) ->
  forall l L V L' V', (forall r, In r l -> In r (stars P m)) ->
  star_names call l L V = Some (L', V') ->
  whole L V V' L' /\ incl l V' /\
  forall n, In n L' -> In n L \/ exists x, brings m x /\ In n (map fst (entries P x)).
Proof.
  intros Hc l. induction l as [|r l IH]; intros L V L' V' Hl; cbn [star_names].
  - intros [= <- <-]. split; [|split; [intros x []|auto]].
    split; [apply incl_refl|]. split; [apply incl_refl|]. split; [auto|]. intros; contradiction.
  - destruct (call r L V) as [[L1 V1]|] eqn:E; [|discriminate]. intros H.
    apply Hc in E. destruct E as (A & B & C).
    apply IH in H; [|intros; apply Hl; now right]. destruct H as (A' & B' & C').
    split; [eapply whole_trans; eauto|]. split.
    + intros x [<- |Hx]; auto. apply A'. exact B.
    + intros n Hn. destruct (C' n Hn) as [H|H]; auto. destruct (C n H) as [H'|(x & Hx & Hn')]; auto.
      right. exists x. split; auto. apply brings_star with r; auto. apply Hl. now left.
Qed.

Lemma get_names_spec : forall f m L V L' V', get_names P f m L V = Some (L', V') ->
  whole L V V' L' /\ In m V' /\
  forall n, In n L' -> In n L \/ exists x, brings m x /\ In n (map fst (entries P x)).
Proof.
  induction f as [|f IH]; intros m L V L' V'; cbn [get_names]; (destruct (existsb _ V) eqn:E;
    [intros [= <- <-]; apply nat_in in E; split; [|split; auto];
     split; [apply incl_refl|]; split; [apply incl_refl|]; split; [auto|]; intros; contradiction|]).
  - discriminate.
  - apply nat_nin in E. intros H. destruct (add_names_spec (entries P m) L) as [Ha Hb].
    apply (star_names_spec m) in H; auto. destruct H as ((a & b & c & d) & B & C).
    split; [|split].
    + split; [intros x Hx; apply a, Ha; now left|].
      split; [intros x Hx; apply b; now right|]. split; [auto|].
      intros v Hv Hn. destruct (Nat.eq_dec v m) as [-> |Hvm].
      * split; auto. intros x Hx. apply a, Ha. now right.
      * apply d; auto. intros [-> |H]; auto.
    + apply b. now left.
    + intros n Hn. destruct (C n Hn) as [H|H]; auto. apply Ha in H. destruct H as [H|H]; auto.
      right. exists m. split; auto. constructor.
Qed.

Lemma get_names_total U : closed P U -> forall f m L V, In m U -> NoDup V -> incl V U ->
  length U - length V <= f -> exists L' V', get_names P f m L V = Some (L', V') /\ NoDup V' /\ incl V' U /\ length V <= length V'.
Proof.
  intros HU. induction f as [|f IH]; intros m L V Hm Hnd Hi Hf; cbn [get_names];
    (destruct (existsb (Nat.eqb m) V) eqn:E; [eauto 8|]); apply nat_nin in E;
    assert (Hnd1 : NoDup (m :: V)) by (now constructor);
    assert (Hi1 : incl (m :: V) U) by (intros x [<- |Hx]; auto);
    pose proof (NoDup_incl_length Hnd1 Hi1) as Hl; cbn [length] in Hl.
  - exfalso. lia.
  - assert (G : forall l L V, incl l U -> NoDup V -> incl V U -> length U - length V <= f ->
      exists L' V', star_names (get_names P f) l L V = Some (L', V') /\ NoDup V' /\ incl V' U /\ length V <= length V').
    { clear - IH. induction l as [|r l IHl]; intros L V Hl Hn Hi Hf; cbn [star_names]; [eauto 8|].
      destruct (IH r L V) as (L1 & V1 & -> & A & B & C); auto. { apply Hl; now left. }
      destruct (IHl L1 V1) as (L2 & V2 & -> & A2 & B2 & C2); auto; [intros x Hx; apply Hl; now right|lia|].
      exists L2, V2. repeat split; auto. lia. }
    destruct (G (stars P m) (add_names (entries P m) L) (m :: V)) as (L' & V' & A & B & C & D); auto.
    + intros r Hr. now apply (proj1 (HU m Hm)).
    + cbn [length]. lia.
    + exists L', V'. cbn [length] in D. repeat split; auto. lia.
Qed.

Lemma means_brings m n b : means m n b -> exists x, brings m x /\ In n (map fst (entries P x)).
Proof.
  assert (O : forall x k t, own x k t -> In k (map fst (entries P x))).
  { intros x k t H. apply lookup_in in H. apply in_map_iff. exists (k, t). auto. }
  induction 1 as [m n ln H|m n r H|m n r i b H _ IH|m n r b H Hd Hs _ (x & Hx & Hn)].
  - exists m. split; [constructor|eauto].
  - exists m. split; [constructor|eauto].
  - exists m. split; [constructor|eauto].
  - exists x. split; auto. apply brings_star with r; auto.
Qed.

Lemma keep_names_spec U f m : closed P U -> In m U -> room P U <= f -> forall l,
  exists k, keep_names P f m l = Some k /\ incl k l /\ (NoDup l -> NoDup k) /\
    forall n, In n k <-> In n l /\ exists rb, resolve_export P f m n = Some (RTrue, rb).
Proof.
  intros HU Hm Hf l. induction l as [|n l (k & E & A & B & C)]; cbn [keep_names].
  - exists []. split; auto. split; [apply incl_refl|]. split; auto. intros n. cbn. tauto.
  - destruct (resolve_export_total U f m n HU Hm Hf) as (v & rb & Er). rewrite Er, E.
    destruct v.
    + exists k. split; auto. split; [now apply incl_tl|]. split; [intros H; inversion H; auto|].
      intros x. rewrite C. cbn [In]. split; [tauto|]. intros [[<- |H] (rb' & H')]; [congruence|eauto].
    + exists (n :: k). split; auto. split; [intros x [<- |H]; [now left|right; auto]|].
      split.
      * intros H. inversion H; subst. constructor; auto.
      * intros x. cbn [In]. rewrite C. split; [intros [<- |[H H']]; eauto|]. intros [[<- |H] H']; auto.
    + exists k. split; auto. split; [now apply incl_tl|]. split; [intros H; inversion H; auto|].
      intros x. rewrite C. cbn [In]. split; [tauto|]. intros [[<- |H] (rb' & H')]; [congruence|eauto].
Qed.

Lemma compare_order : weak_order (fun a b => match Nat.compare a b with Lt => CLess | Eq => CEqual | Gt => CGreater end) le.
Proof.
  split.
  - intros x y. destruct (Nat.compare_spec x y); split; intros; try congruence; lia.
  - intros x y. lia.
  - intros x y z. lia.
Qed.

Lemma namespace_correct U f m : closed P U -> In m U -> room P U <= f ->
  exists l, namespace P f m = Some l /\ StronglySorted lt l /\
    forall n, In n l <-> exists rb, resolve_export P f m n = Some (RTrue, rb).
Proof.
  intros HU Hm Hf. unfold namespace.
  destruct (get_names_total U HU f m [] [] Hm) as (L & V & E & _).
  { constructor. } { intros x []. } { unfold room in Hf. cbn [length]. nia. }
  rewrite E. apply get_names_spec in E. destruct E as ((_ & _ & Hnd & Hcl) & HV & _).
  destruct (keep_names_spec U f m HU Hm Hf L) as (k & -> & Hk1 & Hk2 & Hk3).
  destruct (rjs_sort_sorted_stable nat unit compare_names _ le (fun w x y => eq_refl) compare_order tt k)
    as (l & -> & Hp & Hs & _).
  exists l. split; auto. split.
  - assert (Hn : NoDup l) by (apply (Permutation_NoDup Hp); auto using NoDup_nil).
    clear - Hs Hn. induction Hs as [|a l Hs IH Ha]; [constructor|]. inversion Hn; subst.
    constructor; auto. rewrite Forall_forall in *. intros x Hx. specialize (Ha x Hx).
    assert (a <> x) by (intros ->; contradiction). lia.
  - intros n. rewrite <- (Permutation_in' eq_refl Hp), Hk3. split; [tauto|]. intros H. split; auto.
    destruct H as (rb & Hr). 
    destruct (resolve_export_correct U f m n HU Hm Hf) as (v & rb' & Hr' & _ & _ & Ht & _).
    rewrite Hr in Hr'. inversion Hr'; subst. destruct (Ht eq_refl) as (b & _ & Hb).
    apply means_brings in Hb. destruct Hb as (x & Hx & Hxn).
    assert (G : forall a y, brings a y -> In a V -> In y V).
    { induction 1 as [|a r y Ha _ IH]; auto. intros Hin. apply IH.
      destruct (Hcl a Hin (fun H => H)) as [_ H2]. now apply H2. }
    specialize (G _ _ Hx HV). destruct (Hcl x G (fun H => H)) as [H1 _]. now apply H1.
Qed.

Lemma ns_get_correct U f m n : closed P U -> In m U -> room P U <= f ->
  exists o, ns_get P f m n = Some o /\
    (unknown P m n -> o = None) /\ (forall b, unique P m n b -> o = Some b) /\
    (forall b, o = Some b -> means m n b).
Proof.
  intros HU Hm Hf. unfold ns_get.
  destruct (namespace_correct U f m HU Hm Hf) as (l & -> & _ & Hl).
  destruct (resolve_export_correct U f m n HU Hm Hf) as (v & rb & Hr & Hx & Huq & Ht & _).
  destruct (existsb (Nat.eqb n) l) eqn:E.
  - apply nat_in, Hl in E. destruct E as (rb' & E). rewrite Hr in E. inversion E; subst v rb'.
    rewrite Hr. destruct (Ht eq_refl) as (b & -> & Hb). exists (Some b). split; auto. split.
    + intros H. destruct (H b Hb).
    + split; [intros b' H'; apply Huq in H'; tauto|]. intros b' [= <-]. exact Hb.
  - apply nat_nin in E. exists None. split; auto. split; auto. split; [|discriminate].
    intros b Hb. exfalso. apply E, Hl. apply Huq in Hb. destruct Hb as [-> ->]. eauto.
Qed.

End Proofs.
