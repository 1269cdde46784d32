(** * The tables of the engine *)
Require Import String ZArith List Bool Lia Arith.
From Verif Require Import LexTabModel LexTabSpec LexTabProofs.
Import ListNotations.
Local Open Scope list_scope.
Local Open Scope nat_scope.

(** ** Checks of lists *)
Fixpoint weqb (u v : list Z) : bool :=
  match u, v with
  | [], [] => true
  | a :: u', b :: v' => Z.eqb a b && weqb u' v'
  | _, _ => false
  end.
Lemma weqb_eq u : forall v, weqb u v = true <-> u = v.
Proof.
  induction u as [|a u IH]; intros [|b v]; cbn; try (split; congruence).
  rewrite andb_true_iff, Z.eqb_eq, IH. split; [intros [-> ->]; reflexivity|intro H; injection H; tauto].
Qed.
Definition mem (w : list Z) (l : list (list Z)) : bool := existsb (weqb w) l.
Lemma mem_in w l : mem w l = true <-> In w l.
Proof.
  unfold mem. rewrite existsb_exists. split.
  - intros (x & I & E). apply weqb_eq in E. subst x. exact I.
  - intro I. exists w. split; [exact I|apply weqb_eq; reflexivity].
Qed.
Fixpoint distinct (l : list (list Z)) : bool :=
  match l with [] => true | w :: r => negb (mem w r) && distinct r end.
Lemma distinct_nodup l : distinct l = true -> NoDup l.
Proof.
  induction l as [|w l IH]; [constructor|]. cbn. rewrite andb_true_iff, negb_true_iff. intros [M D].
  constructor; [|exact (IH D)]. intro I. apply mem_in in I. congruence.
Qed.
Definition subset (a b : list (list Z)) : bool := forallb (fun w => mem w b) a.
Lemma subset_incl a b : subset a b = true -> forall w, In w a -> In w b.
Proof. unfold subset. rewrite forallb_forall. intros H w I. apply mem_in. exact (H w I). Qed.

Lemma same_set a b : subset a b && subset b a = true -> forall w, In w a <-> In w b.
Proof.
  rewrite andb_true_iff. intros [X Y] w. split; [exact (subset_incl _ _ X w)|exact (subset_incl _ _ Y w)].
Qed.

(** ** Reserved words *)
Definition word_list : list (list Z * (word_class * list Z)) :=
  map (fun w => (w, (Reserved, w))) reserved_word ++
  map (fun w => (w, (StrictReserved, w))) strict_reserved_word ++
  map (fun w => (w, (Known, w))) identifier.

Lemma words_distinct : NoDup (map fst word_list).
Proof. apply distinct_nodup. vm_compute. reflexivity. Qed.

Lemma word_in w c v : In (w, (c, v)) word_list <->
  v = w /\ In w match c with Reserved => reserved_word | StrictReserved => strict_reserved_word | Known => identifier end.
Proof.
  unfold word_list. rewrite !in_app_iff, !in_map_iff. split.
  - intros [(x & E & I)|[(x & E & I)|(x & E & I)]]; injection E as <- <- <-; tauto.
  - intros [-> I]. destruct c; [left|right; left|right; right]; exists w; tauto.
Qed.

Lemma reserved_set w : In w reserved_word <-> In w standard_reserved.
Proof. apply same_set. vm_compute. reflexivity. Qed.
Lemma strict_set w : In w strict_reserved_word <-> In w standard_strict.
Proof. apply same_set. vm_compute. reflexivity. Qed.

Theorem words_exact w : w <> [] ->
  exists x, word_flags w = Some x /\
    (forall c v, x = Some (c, v) -> v = w) /\
    ((exists v, x = Some (Reserved, v)) <-> In w standard_reserved) /\
    ((exists v, x = Some (StrictReserved, v)) <-> In w standard_strict).
Proof.
  intro NE. unfold word_flags, identifier_table. fold word_list.
  destruct (build_ok _ word_list root (root_inv _)) as (tab & B & IV & T & _). rewrite B.
  exists (token_of _ tab w). split; [exact (lookup_ok _ tab IV w 0 [] NE eq_refl)|].
  assert (K : forall c v, token_of _ tab w = Some (c, v) <->
    v = w /\ In w match c with Reserved => reserved_word | StrictReserved => strict_reserved_word | Known => identifier end).
  { intros c v. rewrite (T w (c, v) words_distinct (fun u _ => root_token _ u)).
    rewrite root_token, word_in. split; [intros [H|H]; [discriminate|exact H]|tauto]. }
  split; [|split].
  - intros c v H. apply K in H. tauto.
  - rewrite <- reserved_set. split.
    + intros [v H]. apply K in H. tauto.
    + intro H. exists w. apply K. tauto.
  - rewrite <- strict_set. split.
    + intros [v H]. apply K in H. tauto.
    + intro H. exists w. apply K. tauto.
Qed.

(** ** Punctuators *)
Definition punct_list : list (list Z * list Z) := map (fun w => (w, w)) punctuators.

Lemma puncts_keys : map fst punct_list = punctuators.
Proof. unfold punct_list. rewrite map_map. apply (map_id punctuators). Qed.
Lemma puncts_distinct : NoDup (map fst punct_list).
Proof. rewrite puncts_keys. apply distinct_nodup. vm_compute. reflexivity. Qed.
Lemma puncts_short w : In w punctuators -> length w <= 7.
Proof.
  intro I. assert (F : forallb (fun w : list Z => length w <=? 7) punctuators = true) by (vm_compute; reflexivity).
  rewrite forallb_forall in F. specialize (F w I). apply Nat.leb_le. exact F.
Qed.
Lemma puncts_set w : In w punctuators <-> In w standard_punctuators.
Proof. apply same_set. vm_compute. reflexivity. Qed.

Lemma prefix_unique (s t r t' r' : list Z) : s = t ++ r -> s = t' ++ r' -> length t = length t' -> t = t' /\ r = r'.
Proof.
  intros -> E L. revert t' E L. induction t as [|a t IH]; intros [|b t'] E L; try discriminate; [cbn in E; tauto|].
  injection E as -> E. injection L as L. destruct (IH _ E L) as [-> ->]. tauto.
Qed.

Lemma longest_unique s t r t' r' : longest s t r -> longest s t' r' -> t = t' /\ r = r'.
Proof.
  intros [T M] [T' M']. pose proof (M _ _ T'). pose proof (M' _ _ T).
  destruct T as (_ & E & _), T' as (_ & E' & _). apply (prefix_unique s); try assumption. lia.
Qed.

Lemma punctuator_cases s :
  (exists t r, lex_punctuator s = PToken t r /\ longest s t r) \/
  (lex_punctuator s = PError /\ forall t r, ~ token_at s t r).
Proof.
  unfold lex_punctuator, punctuator_table. fold punct_list.
  destruct (build_ok _ punct_list root (root_inv _)) as (tab & B & IV & T & WK). rewrite B.
  assert (K : forall w k, token_of _ tab w = Some k <-> k = w /\ In w punctuators).
  { intros w k. rewrite (T w k puncts_distinct (fun u _ => root_token _ u)).
    rewrite root_token. unfold punct_list. rewrite in_map_iff. split.
    - intros [H|(x & E & I)]; [discriminate|]. injection E as <- <-. tauto.
    - intros [-> I]. right. exists w. tauto. }
  assert (BD : forall v, walk _ tab 0 v <> None -> length v <= 7).
  { intros v H. destruct (WK v H) as [R|(w & x & I & ->)].
    - rewrite (root_walk _ _ R). cbn. lia.
    - rewrite puncts_keys in I. pose proof (puncts_short _ I) as S. rewrite app_length in S. lia. }
  assert (ST : exists t, @nil Z = t ++ [] /\ t = [] /\
     forall t' r', [] = t' ++ r' -> r' <> [] -> token_of (list Z) tab t' = None).
  { exists []. split; [reflexivity|]. split; [reflexivity|]. intros t' r' E N. symmetry in E.
    apply app_eq_nil in E. destruct E as [_ E]. contradiction. }
  pose proof (punct_ok _ tab IV BD s [] 0 None [] eq_refl ST) as H. cbn [app] in H.
  assert (TK : forall t r, token_at s t r -> token_of _ tab t <> None).
  { intros t r (I & _). apply puncts_set in I. rewrite (proj2 (K t t) (conj eq_refl I)). discriminate. }
  destruct (punct tab 0 None [] s) as [k r| | |]; try contradiction.
  - left. destruct H as (t & E & TT & M). apply K in TT. destruct TT as [-> I]. apply puncts_set in I.
    destruct (list_eq_dec Z.eq_dec t [63%Z; 46%Z]) as [Q|NQ].
    + assert (NOD : match r with c :: _ => ~ (48 <= c <= 57)%Z | [] => True end ->
        exists t0 r0, PToken t r = PToken t0 r0 /\ longest s t0 r0).
      { intro ND. exists t, r. split; [reflexivity|]. split; [split; [exact I|split; [exact E|intros _; exact ND]]|].
        intros t' r' X. exact (M t' r' (proj1 (proj2 X)) (TK _ _ X)). }
      destruct r as [|c r]; [exact (NOD Logic.I)|].
      destruct (Z.leb_spec 48 c); [|apply NOD; lia]. destruct (Z.leb_spec c 57); [|apply NOD; lia].
      cbn [andb]. exists [63%Z], (46%Z :: c :: r). split; [reflexivity|]. split.
      * split; [apply mem_in; vm_compute; reflexivity|]. split; [rewrite E, Q; reflexivity|discriminate].
      * intros t' r' X. pose proof (M t' r' (proj1 (proj2 X)) (TK _ _ X)) as LE. rewrite Q in LE. cbn [length] in LE |- *.
        destruct (Nat.eq_dec (length t') 2) as [L2|]; [|lia]. exfalso.
        destruct X as (_ & E' & NX).
        destruct (prefix_unique s t' r' t (c :: r) E' E) as [-> ->]; [rewrite L2, Q; reflexivity|].
        specialize (NX Q). cbn in NX. lia.
    + exists t, r. split; [reflexivity|]. split; [split; [exact I|split; [exact E|intro Q; contradiction]]|].
      intros t' r' X. exact (M t' r' (proj1 (proj2 X)) (TK _ _ X)).
  - right. split; [reflexivity|]. destruct H as (_ & _ & M). intros t r X. apply (TK _ _ X). exact (M t r (proj1 (proj2 X))).
Qed.

Theorem punctuator_exact s t r : lex_punctuator s = PToken t r <-> longest s t r.
Proof.
  destruct (punctuator_cases s) as [(t0 & r0 & -> & L)|[-> N]].
  - split; [intro H; injection H as <- <-; exact L|]. intro L'.
    destruct (longest_unique _ _ _ _ _ L L') as [-> ->]. reflexivity.
  - split; [discriminate|]. intros [X _]. destruct (N _ _ X).
Qed.

Theorem punctuator_total s :
  (exists t r, lex_punctuator s = PToken t r) \/ (lex_punctuator s = PError /\ forall t r, ~ token_at s t r).
Proof.
  destruct (punctuator_cases s) as [(t0 & r0 & H & _)|H]; [left; exists t0, r0; exact H|right; exact H].
Qed.
