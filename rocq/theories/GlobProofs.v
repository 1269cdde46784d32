(** The declarations of a script: all or nothing, and what is there afterwards. *)
From Coq Require Import List ZArith Bool Lia.
From Verif Require Import GlobModel GlobSpec.
Import ListNotations.
Local Open Scope Z_scope.

(** *** Checks *)
Lemma each_check {A} (l : list A) (f : glob -> A -> bool) e s :
  each l (fun s a => check (f s a) e s) s = if existsb (f s) l then (s, Err e) else (s, Ok tt).
Proof.
  induction l as [|a l IH]; [reflexivity|]. cbn [each existsb]. unfold check at 1.
  destruct (f s a); cbn [andthen orb]; [reflexivity|exact IH].
Qed.
Lemma each_ext {A} (l : list A) f g s : (forall s a, f s a = g s a) -> each l f s = each l g s.
Proof.
  intro H. revert s; induction l as [|a l IH]; intro s; [reflexivity|]. cbn [each]. rewrite H.
  destruct (g s a) as [s' [?|?|]]; cbn [andthen]; auto.
Qed.
Definition bad_lex (s : glob) (x : Z * bool) : bool :=
  declared s (fst x) || has_lexical s (fst x) || restricted s (fst x).
Definition syntactic (p : script) (s : glob) : bool :=
  existsb (bad_lex s) (lexs p) || existsb (has_lexical s) (vars p).
Definition placeless (p : script) (s : glob) : bool :=
  existsb (fun f : Z * val => negb (can_function s (fst f))) (funcs p) || existsb (fun n => negb (can_var s n)) (vars p).
Definition create (p : script) (s : glob) : glob * out unit :=
  andthen (each (lexs p) (fun s x => create_lexical s (fst x) (snd x)) s) (fun s =>
  andthen (each (funcs p) (fun s f => create_function s (fst f) (snd f) false) s) (fun s =>
  each (vars p) (fun s n => create_var s n false) s)).
Lemma declare_split p s :
  declare p s = if syntactic p s then (s, Err SyntaxError)
                else if placeless p s then (s, Err TypeError) else create p s.
Proof.
  unfold declare, syntactic, placeless.
  rewrite (each_ext (lexs p) _ (fun s x => check (bad_lex s x) SyntaxError s)).
  2:{ intros s0 a. unfold bad_lex, check. destruct (declared s0 (fst a)); [reflexivity|]. cbn [andthen orb].
      destruct (has_lexical s0 (fst a)); reflexivity. }
  rewrite each_check. destruct (existsb (bad_lex s) (lexs p)); [reflexivity|]. cbn [andthen orb].
  rewrite (each_check (vars p) has_lexical). destruct (existsb (has_lexical s) (vars p)); [reflexivity|]. cbn [andthen].
  rewrite (each_check (funcs p) (fun s f => negb (can_function s (fst f)))).
  destruct (existsb _ (funcs p)); [reflexivity|]. cbn [andthen orb].
  rewrite (each_check (vars p) (fun s n => negb (can_var s n))).
  destruct (existsb _ (vars p)); reflexivity.
Qed.

Lemma has_lexical_iff s n : has_lexical s n = true <-> exists b, lexical s n = Some b.
Proof.
  unfold has_lexical. destruct (lexical s n) as [b|]; split; intro H; try reflexivity; try discriminate.
  - exists b; reflexivity.
  - destruct H as [b H]; discriminate.
Qed.
Lemma restricted_iff s n : restricted s n = true <-> exists q, own s n = Some q /\ fixed q.
Proof.
  unfold restricted. split.
  - destruct (own s n) as [q|]; [|discriminate]. destruct (configurable q) eqn:C; [discriminate|]. intros _.
    exists q. split; [reflexivity|]. destruct q; exact C.
  - intros (q & -> & F). destruct q; cbn in *; subst; reflexivity.
Qed.
Lemma can_function_iff s n : can_function s n = false <-> no_function s n.
Proof.
  unfold can_function, no_function. destruct (own s n) as [q|].
  - split.
    + intro H. right. exists q. split; [reflexivity|]. destruct q as [v w e c|e c]; cbn in *; destruct c; try discriminate.
      * split; [reflexivity|]. intros v0 E. inversion E; subst. discriminate.
      * split; [reflexivity|]. intros v0 E. discriminate.
    + intros [[E _]|(q' & E & F & N)]; [discriminate|]. inversion E; subst q'.
      destruct q as [v w e c|e c]; cbn in *; subst c; [|reflexivity].
      destruct w, e; try reflexivity. destruct (N v eq_refl).
  - split; [intro H; left; split; [reflexivity|exact H]|]. intros [[_ H]|(q & E & _)]; [exact H|discriminate].
Qed.
Lemma syntactic_iff p s : incl (names (funcs p)) (vars p) -> (syntactic p s = true <-> clash p s).
Proof.
  intro I. unfold syntactic. rewrite orb_true_iff, !existsb_exists. split.
  - intros [(x & Hin & B)|(n & Hin & B)].
    + assert (Hn : In (fst x) (names (lexs p))) by (apply in_map; exact Hin).
      unfold bad_lex in B. apply orb_true_iff in B as [B|B]; [apply orb_true_iff in B as [B|B]|].
      * exact (clash_var p s _ Hn B).
      * apply has_lexical_iff in B as [b B]. exact (clash_lex p s _ b Hn B).
      * apply restricted_iff in B as (q & E & F). exact (clash_prop p s _ q Hn E F).
    + apply has_lexical_iff in B as [b B]. exact (clash_back p s n b (or_introl Hin) B).
  - intros [n Hn D|n b Hn L|n q Hn E F|n b Hn L].
    + apply in_map_iff in Hn as (x & <- & Hin). left. exists x. split; [exact Hin|]. unfold bad_lex. rewrite D. reflexivity.
    + apply in_map_iff in Hn as (x & <- & Hin). left. exists x. split; [exact Hin|]. unfold bad_lex.
      rewrite (proj2 (has_lexical_iff s (fst x))) by (exists b; exact L). rewrite orb_true_r. reflexivity.
    + apply in_map_iff in Hn as (x & <- & Hin). left. exists x. split; [exact Hin|]. unfold bad_lex.
      rewrite (proj2 (restricted_iff s (fst x))) by (exists q; auto). apply orb_true_r.
    + right. exists n. split; [destruct Hn as [H|H]; [exact H|exact (I n H)]|]. apply has_lexical_iff. exists b; exact L.
Qed.
Lemma placeless_iff p s : placeless p s = true <-> no_place p s.
Proof.
  unfold placeless. rewrite orb_true_iff, !existsb_exists. split.
  - intros [(f & Hin & B)|(n & Hin & B)].
    + apply negb_true_iff, can_function_iff in B. exact (no_place_function p s _ (in_map fst _ _ Hin) B).
    + apply negb_true_iff in B. unfold can_var, has_own in B.
      destruct (own s n) eqn:E; [discriminate|].
      destruct (in_dec Z.eq_dec n (names (funcs p))) as [Hf|Hf].
      * exact (no_place_function p s n Hf (or_introl (conj E B))).
      * exact (no_place_var p s n Hin Hf E B).
  - intros [n Hn F|n Hn _ E X].
    + apply in_map_iff in Hn as (f & <- & Hin). left. exists f. split; [exact Hin|].
      apply negb_true_iff, can_function_iff. exact F.
    + right. exists n. split; [exact Hn|]. unfold can_var, has_own. rewrite E, X. reflexivity.
Qed.

(** *** Creations *)
Lemma put_at {A} (f : Z -> A) n a m : put f n a m = if m =? n then a else f m.
Proof. reflexivity. Qed.
Lemma put_eq {A} (f : Z -> A) n a : put f n a n = a.
Proof. unfold put. rewrite Z.eqb_refl. reflexivity. Qed.
Lemma put_ne {A} (f : Z -> A) n a m : m <> n -> put f n a m = f m.
Proof. unfold put. intro H. apply Z.eqb_neq in H. rewrite H. reflexivity. Qed.

Lemma lexicals_ok l s : NoDup (names l) -> (forall n, In n (names l) -> lexical s n = None) ->
  exists s', each l (fun s (x : Z * bool) => create_lexical s (fst x) (snd x)) s = (s', Ok tt) /\
    own s' = own s /\ declared s' = declared s /\ extensible s' = extensible s /\ inherited s' = inherited s /\
    (forall n c, In (n, c) l -> lexical s' n = Some (mkB c false)) /\
    (forall n, ~ In n (names l) -> lexical s' n = lexical s n).
Proof.
  revert s; induction l as [|[n c] l IH]; intros s ND H.
  - exists s. repeat split; try reflexivity. intros n c [].
  - cbn [names map fst] in *. apply NoDup_cons_iff in ND as [Nin ND]. cbn [each fst snd].
    unfold create_lexical at 1, has_lexical. rewrite (H n (or_introl eq_refl)). cbn [andthen].
    destruct (IH (set_lexical s n (mkB c false)) ND) as (s' & E & O & D & X & I & L & K).
    { intros m Hm. cbn [lexical set_lexical]. rewrite put_ne; [apply H; right; exact Hm|]. intros ->. exact (Nin Hm). }
    exists s'. split; [exact E|]. split; [exact O|]. split; [exact D|]. split; [exact X|]. split; [exact I|]. split.
    + intros m c' [Q|Q]; [|apply L; exact Q]. inversion Q; subst m c'. rewrite K by exact Nin. apply put_eq.
    + intros m Hm. rewrite K by (intro; apply Hm; right; assumption). cbn [lexical set_lexical].
      apply put_ne. intros ->. apply Hm. left; reflexivity.
Qed.

Lemma function_ok s n v : can_function s n = true ->
  exists s', create_function s n v false = (s', Ok tt) /\
    (forall m, own s' m = put (own s) n (Some (Data v true true false)) m) /\
    declared s' = put (declared s) n true /\ extensible s' = extensible s /\ inherited s' = inherited s /\ lexical s' = lexical s.
Proof.
  intro C. unfold can_function in C. unfold create_function, define_full, define_value, set_sloppy.
  destruct (own s n) as [[v0 w e c|e c]|] eqn:E; cbn [configurable] in *.
  - destruct c.
    + cbn [andthen own set_own]. rewrite put_eq. cbn [andthen].
      eexists. split; [reflexivity|]. repeat split; try reflexivity; try exact C.
      intro m. cbn [own set_own set_declared]. unfold put. destruct (m =? n); reflexivity.
    + apply andb_true_iff in C as [-> ->]. cbn [orb andthen own set_own]. rewrite put_eq. cbn [andthen].
      eexists. split; [reflexivity|]. repeat split; try reflexivity; try exact C.
      intro m. cbn [own set_own set_declared]. unfold put. destruct (m =? n); reflexivity.
  - destruct c; [|discriminate]. cbn [andthen own set_own]. rewrite put_eq. cbn [andthen].
    eexists. split; [reflexivity|]. repeat split; try reflexivity; try exact C.
    intro m. cbn [own set_own set_declared]. unfold put. destruct (m =? n); reflexivity.
  - rewrite C. cbn [andthen own set_own]. rewrite put_eq. cbn [andthen].
    eexists. split; [reflexivity|]. repeat split; try reflexivity; try exact C.
    intro m. cbn [own set_own set_declared]. unfold put. destruct (m =? n); reflexivity.
Qed.
Lemma functions_ok l s : (forall n, In n (names l) -> can_function s n = true) ->
  exists s', each l (fun s (f : Z * val) => create_function s (fst f) (snd f) false) s = (s', Ok tt) /\
    (forall a n v r, l = a ++ (n, v) :: r -> ~ In n (names r) -> own s' n = Some (Data v true true false)) /\
    (forall n, ~ In n (names l) -> own s' n = own s n) /\
    (forall n, In n (names l) -> own s' n <> None) /\
    (forall n, declared s' n = true <-> declared s n = true \/ In n (names l)) /\
    extensible s' = extensible s /\ inherited s' = inherited s /\ lexical s' = lexical s.
Proof.
  revert s; induction l as [|[n v] l IH]; intros s H.
  - exists s. split; [reflexivity|]. split; [intros [|] ? ? ? Q; discriminate|]. split; [reflexivity|]. split; [intros n []|].
    split; [|repeat split; reflexivity]. intro n; split; [auto|intros [D|[]]; exact D].
  - cbn [each fst snd]. destruct (function_ok s n v) as (s1 & E & O & D & X & I & L); [apply H; left; reflexivity|].
    rewrite E. cbn [andthen].
    destruct (IH s1) as (s' & E' & Last & Oth & Some' & D' & X' & I' & L').
    { intros m Hm. unfold can_function. rewrite O, X, put_at. destruct (m =? n); [reflexivity|].
      apply (H m). right; exact Hm. }
    assert (Here : ~ In n (names l) -> own s' n = Some (Data v true true false)).
    { intro Hn. rewrite Oth by exact Hn. rewrite O. apply put_eq. }
    exists s'. split; [exact E'|]. split; [|split; [|split; [|split]]].
    + intros [|a0 a] n0 v0 r Q Hn; cbn [app] in Q; inversion Q; subst.
      * exact (Here Hn).
      * exact (Last _ _ _ _ eq_refl Hn).
    + intros m Hm. cbn [names map fst] in Hm. rewrite Oth by (intro; apply Hm; right; assumption). rewrite O.
      apply put_ne. intros ->. apply Hm; left; reflexivity.
    + intros m Hm. destruct (in_dec Z.eq_dec m (names l)) as [K|K]; [exact (Some' m K)|].
      destruct Hm as [<-|Hm]; [|destruct (K Hm)]. cbn [fst] in *. rewrite (Here K). discriminate.
    + intro m. rewrite D', D. cbn [names map fst In]. rewrite put_at. destruct (Z.eqb_spec m n) as [->|N]; [tauto|].
      split; [tauto|]. intros [K|[K|K]]; [tauto|congruence|tauto].
    + repeat split; congruence.
Qed.
Lemma vars_ok l s : (forall n, In n l -> can_var s n = true) ->
  exists s', each l (fun s n => create_var s n false) s = (s', Ok tt) /\
    (forall n q, own s n = Some q -> own s' n = Some q) /\
    (forall n, own s n = None -> In n l -> own s' n = Some (Data Undef true true false)) /\
    (forall n, own s n = None -> ~ In n l -> own s' n = None) /\
    (forall n, declared s' n = true <-> declared s n = true \/ In n l) /\
    extensible s' = extensible s /\ inherited s' = inherited s /\ lexical s' = lexical s.
Proof.
  revert s; induction l as [|n l IH]; intros s H.
  - exists s. split; [reflexivity|]. split; [auto|]. split; [intros n _ []|]. split; [auto|].
    split; [|repeat split; reflexivity]. intro n; split; [auto|intros [D|[]]; exact D].
  - cbn [each].
    assert (S1 : exists s1, create_var s n false = (s1, Ok tt) /\
      (forall m, own s1 m = match own s m with Some q => Some q | None => if m =? n then Some (Data Undef true true false) else None end) /\
      declared s1 = put (declared s) n true /\ extensible s1 = extensible s /\ inherited s1 = inherited s /\ lexical s1 = lexical s).
    { pose proof (H n (or_introl eq_refl)) as C. unfold can_var in C. unfold create_var, has_own in *.
      destruct (own s n) as [q|] eqn:E.
      - cbn [andthen]. eexists. split; [reflexivity|]. repeat split; try reflexivity; try exact C.
        intro m. cbn [own set_declared]. destruct (own s m) eqn:Em; [reflexivity|].
        destruct (Z.eqb_spec m n) as [->|N]; [congruence|reflexivity].
      - rewrite C. unfold define_full, set_sloppy. rewrite E, C. cbn [andthen own set_own]. rewrite put_eq. cbn [andthen].
        eexists. split; [reflexivity|]. repeat split; try reflexivity; try exact C.
        intro m. cbn [own set_declared set_own]. rewrite !put_at. destruct (Z.eqb_spec m n) as [->|N]; [rewrite E; reflexivity|].
        destruct (own s m); reflexivity. }
    destruct S1 as (s1 & E & O & D & X & I & L). rewrite E. cbn [andthen].
    destruct (IH s1) as (s' & E' & Old & New & Oth & D' & X' & I' & L').
    { intros m Hm. pose proof (H m (or_intror Hm)) as C. unfold can_var, has_own in *. rewrite O, X.
      destruct (own s m); [reflexivity|]. destruct (m =? n); [reflexivity|exact C]. }
    exists s'. split; [exact E'|]. split; [|split; [|split; [|split]]].
    + intros m q Q. apply Old. rewrite O, Q. reflexivity.
    + intros m Q Hm. destruct (Z.eq_dec m n) as [->|N].
      * apply Old. rewrite O, Q, Z.eqb_refl. reflexivity.
      * destruct Hm as [K|Hm]; [congruence|]. apply New; [|exact Hm]. rewrite O, Q.
        apply Z.eqb_neq in N. rewrite N. reflexivity.
    + intros m Q Hm. apply Oth; [|intro; apply Hm; right; assumption]. rewrite O, Q.
      destruct (Z.eqb_spec m n) as [->|N]; [destruct Hm; left; reflexivity|reflexivity].
    + intro m. rewrite D', D, put_at. cbn [In]. destruct (Z.eqb_spec m n) as [->|N]; [tauto|].
      split; [tauto|]. intros [K|[K|K]]; [tauto|congruence|tauto].
    + repeat split; congruence.
Qed.

Lemma create_ok p s : NoDup (names (lexs p)) -> syntactic p s = false -> placeless p s = false ->
  exists s', create p s = (s', Ok tt) /\ declared_state p s s'.
Proof.
  intros ND Sy Pl. unfold syntactic in Sy. apply orb_false_iff in Sy as [Sl Sv].
  unfold placeless in Pl. apply orb_false_iff in Pl as [Pf Pv].
  assert (F : forall A (f : A -> bool) l a, existsb f l = false -> In a l -> f a = false).
  { intros A f l a E Hin. destruct (f a) eqn:Q; [|reflexivity]. rewrite (proj2 (existsb_exists f l)) in E; [discriminate|].
    exists a; auto. }
  unfold create.
  destruct (lexicals_ok (lexs p) s ND) as (s1 & E1 & O1 & D1 & X1 & I1 & L1 & K1).
  { intros n Hn. apply in_map_iff in Hn as (x & <- & Hin). pose proof (F _ _ _ _ Sl Hin) as B. unfold bad_lex in B.
    apply orb_false_iff in B as [B _]. apply orb_false_iff in B as [_ B]. unfold has_lexical in B.
    destruct (lexical s (fst x)); [discriminate|reflexivity]. }
  rewrite E1. cbn [andthen].
  destruct (functions_ok (funcs p) s1) as (s2 & E2 & Last & Oth2 & Some2 & D2 & X2 & I2 & L2).
  { intros n Hn. apply in_map_iff in Hn as (x & <- & Hin). pose proof (F _ _ _ _ Pf Hin) as B. cbn beta in B.
    apply negb_false_iff in B. unfold can_function in *. rewrite O1, X1. exact B. }
  rewrite E2. cbn [andthen].
  destruct (vars_ok (vars p) s2) as (s3 & E3 & Old & New & Oth3 & D3 & X3 & I3 & L3).
  { intros n Hin. pose proof (F _ _ _ _ Pv Hin) as B. cbn beta in B. apply negb_false_iff in B.
    unfold can_var, has_own in *. destruct (in_dec Z.eq_dec n (names (funcs p))) as [K|K].
    - pose proof (Some2 n K). destruct (own s2 n); [reflexivity|congruence].
    - rewrite (Oth2 n K), O1, X2, X1. exact B. }
  exists s3. split; [exact E3|]. constructor.
  - intros a n v r Q Hn. apply Old. exact (Last _ _ _ _ Q Hn).
  - intros n q Hn Q. apply Old. rewrite Oth2, O1 by exact Hn. exact Q.
  - intros n Hn Q Hv. apply New; [|exact Hv]. rewrite Oth2, O1 by exact Hn. exact Q.
  - intros n Hn Q Hv. apply Oth3; [|exact Hv]. rewrite Oth2, O1 by exact Hn. exact Q.
  - intros n c Hin. rewrite L3, L2. exact (L1 n c Hin).
  - intros n Hn. rewrite L3, L2. exact (K1 n Hn).
  - intro n. rewrite D3, D2, D1. tauto.
  - congruence.
  - intro n. rewrite I3, I2, I1. reflexivity.
Qed.

Theorem declare_syntax p s s' : NoDup (names (lexs p)) -> incl (names (funcs p)) (vars p) ->
  (declare p s = (s', Err SyntaxError) <-> s' = s /\ clash p s).
Proof.
  intros ND I. rewrite declare_split, <- (syntactic_iff p s I). destruct (syntactic p s) eqn:Sy.
  - split; [intro Q; inversion Q; auto|intros [-> _]; reflexivity].
  - split; [|intros [_ Q]; discriminate]. destruct (placeless p s) eqn:Pl; [intro; discriminate|].
    destruct (create_ok p s ND Sy Pl) as (s1 & E & _). rewrite E. discriminate.
Qed.
Theorem declare_type p s s' : NoDup (names (lexs p)) -> incl (names (funcs p)) (vars p) ->
  (declare p s = (s', Err TypeError) <-> s' = s /\ ~ clash p s /\ no_place p s).
Proof.
  intros ND I. rewrite declare_split, <- (syntactic_iff p s I), <- placeless_iff. destruct (syntactic p s) eqn:Sy.
  - split; [intro; discriminate|]. intros (_ & N & _). destruct (N eq_refl).
  - destruct (placeless p s) eqn:Pl.
    + split; [intro Q; inversion Q; repeat split; discriminate|intros (-> & _); reflexivity].
    + split; [|intros (_ & _ & Q); discriminate].
      destruct (create_ok p s ND Sy Pl) as (s1 & E & _). rewrite E. discriminate.
Qed.
Theorem declare_done p s : NoDup (names (lexs p)) -> incl (names (funcs p)) (vars p) ->
  ~ clash p s -> ~ no_place p s -> exists s', declare p s = (s', Ok tt) /\ declared_state p s s'.
Proof.
  intros ND I. rewrite declare_split, <- (syntactic_iff p s I), <- placeless_iff. intros C N.
  destruct (syntactic p s) eqn:Sy; [destruct (C eq_refl)|]. destruct (placeless p s) eqn:Pl; [destruct (N eq_refl)|].
  exact (create_ok p s ND Sy Pl).
Qed.
Theorem declare_outcomes p s : NoDup (names (lexs p)) -> incl (names (funcs p)) (vars p) ->
  (exists s', declare p s = (s', Ok tt) /\ ~ clash p s /\ ~ no_place p s) \/
  declare p s = (s, Err SyntaxError) \/ declare p s = (s, Err TypeError).
Proof.
  intros ND I. rewrite declare_split. pose proof (syntactic_iff p s I) as S1. pose proof (placeless_iff p s) as P1.
  destruct (syntactic p s) eqn:Sy; [auto|]. destruct (placeless p s) eqn:Pl; [auto|].
  destruct (create_ok p s ND Sy Pl) as (s1 & E & _). left. exists s1. split; [exact E|].
  split; intro K; [apply S1 in K|apply P1 in K]; discriminate.
Qed.

(** *** delete *)
Theorem delete_state s n s' b : delete s n = (s', b) ->
  (b = false -> s' = s) /\
  (b = true -> own s' n = None /\ declared s' n = false) /\
  (forall m, m <> n -> own s' m = own s m /\ declared s' m = declared s m) /\
  lexical s' = lexical s /\ inherited s' = inherited s /\ extensible s' = extensible s.
Proof.
  unfold delete. intro E.
  assert (Stay : s' = s -> b = false -> (b = false -> s' = s) /\ (b = true -> own s' n = None /\ declared s' n = false) /\
    (forall m, m <> n -> own s' m = own s m /\ declared s' m = declared s m) /\
    lexical s' = lexical s /\ inherited s' = inherited s /\ extensible s' = extensible s).
  { intros -> ->. repeat split; try reflexivity; discriminate. }
  destruct (has_lexical s n); [inversion E; subst; apply Stay; reflexivity|].
  destruct (own s n) as [q|]; [|inversion E; subst; apply Stay; reflexivity].
  destruct (configurable q); inversion E; subst; [|apply Stay; reflexivity].
  split; [discriminate|]. split; [intros _; split; apply put_eq|].
  split; [intros m H; split; apply put_ne; exact H|]. repeat split; reflexivity.
Qed.
Theorem delete_answer_own s n s' b : delete s n = (s', b) ->
  (own s n <> None \/ lexical s n <> None) -> delete_answer s n b.
Proof.
  unfold delete, delete_answer, has_lexical. intros E H. destruct (lexical s n) as [l|].
  - inversion E; subst. split; [discriminate|]. intros [Q _]; discriminate.
  - destruct (own s n) as [q|]; [|destruct H; congruence].
    assert (C : configurable q = true <-> ~ fixed q) by (destruct q as [? ? ? [|]|? [|]]; cbn; split; congruence).
    destruct (configurable q); inversion E; subst.
    + split; [intros _|reflexivity]. split; [reflexivity|]. intros q' Q. inversion Q; subst. apply C; reflexivity.
    + split; [discriminate|]. intros [_ Q]. apply C. exact (Q q eq_refl).
Qed.

(** *** eval *)
Lemma scopes_clash_iff chain vs :
  scopes_clash chain vs = true <-> exists e n, In e chain /\ In n vs /\ sc_holds e n <> No.
Proof.
  induction chain as [|e chain IH]; cbn [scopes_clash].
  - split; [discriminate|intros (e & n & [] & _)].
  - destruct (existsb (fun n => nonzero (sc_holds e n)) vs) eqn:E.
    + split; [intros _|reflexivity]. apply existsb_exists in E as (n & Hn & B). exists e, n.
      split; [left; reflexivity|]. split; [exact Hn|]. intro Q. rewrite Q in B. discriminate.
    + rewrite IH. split.
      * intros (e' & n & He & Hn & B). exists e', n. split; [right; exact He|auto].
      * intros (e' & n & [<-|He] & Hn & B); [|exists e', n; auto].
        assert (T : existsb (fun n => nonzero (sc_holds e n)) vs = true).
        { apply existsb_exists. exists n. split; [exact Hn|]. destruct (sc_holds e n); [congruence|reflexivity|reflexivity]. }
        congruence.
Qed.
Theorem eval_clash_iff strict global chain vs : quiet chain -> with_free chain vs ->
  (eval_clash strict global chain vs = true <-> eval_error strict global chain vs).
Proof.
  intros Q F. unfold eval_clash, eval_error. destruct strict; [split; [discriminate|intros [K _]; discriminate]|].
  assert (S1 : scopes_clash chain vs = true <-> exists n, In n vs /\ exists e, In e chain /\ sc_with e = false /\ sc_holds e n = Yes).
  { rewrite scopes_clash_iff. split.
    - intros (e & n & He & Hn & B). exists n. split; [exact Hn|]. exists e. split; [exact He|].
      destruct (sc_with e) eqn:We; [destruct (B (F e n He We Hn))|]. split; [reflexivity|].
      pose proof (Q e n He We). destruct (sc_holds e n); congruence.
    - intros (n & Hn & e & He & _ & B). exists e, n. repeat split; auto. congruence. }
  destruct global as [s|].
  - destruct (existsb (has_lexical s) vs) eqn:E.
    + split; [intros _|reflexivity]. split; [reflexivity|]. apply existsb_exists in E as (n & Hn & B).
      apply has_lexical_iff in B as [b B]. exists n. split; [exact Hn|]. left. exists s, b. auto.
    + rewrite S1. split.
      * intros (n & Hn & K). split; [reflexivity|]. exists n. split; [exact Hn|right; exact K].
      * intros (_ & n & Hn & [(s' & b & Qs & B)|K]); [|exists n; auto]. inversion Qs; subst s'.
        assert (T : existsb (has_lexical s) vs = true) by (apply existsb_exists; exists n; split; [exact Hn|apply has_lexical_iff; exists b; exact B]).
        congruence.
  - rewrite S1. split.
    + intros (n & Hn & K). split; [reflexivity|]. exists n. split; [exact Hn|right; exact K].
    + intros (_ & n & Hn & [(s' & b & Qs & B)|K]); [discriminate|exists n; auto].
Qed.
(** whatever the scopes are, every error of the standard is found *)
Theorem eval_clash_complete strict global chain vs :
  eval_error strict global chain vs -> eval_clash strict global chain vs = true.
Proof.
  intros (-> & n & Hn & [(s & b & -> & B)|(e & He & _ & B)]); unfold eval_clash.
  - assert (T : existsb (has_lexical s) vs = true) by (apply existsb_exists; exists n; split; [exact Hn|apply has_lexical_iff; exists b; exact B]).
    rewrite T. reflexivity.
  - assert (T : scopes_clash chain vs = true) by (apply scopes_clash_iff; exists e, n; repeat split; auto; congruence).
    rewrite T. destruct (match global with Some s => existsb (has_lexical s) vs | None => false end); reflexivity.
Qed.
