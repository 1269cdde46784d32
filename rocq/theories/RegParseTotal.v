(** The recursion bound of the model of the parser is never reached *)
From Coq Require Import ZArith List Bool Lia ZifyBool Arith.
Import ListNotations.
From Verif Require StrModel.
From Verif Require Import RegModel RegSpec RegBase RegParseModel RegParseSpec RegParseTree RegParseSafe.
Local Open Scope Z_scope.
Local Notation len := (@length Z).

(** a reader ends, and what is left is not longer *)
Definition ends {A} (m : pres A) (rest : A -> list Z) (n : nat) : Prop :=
  m <> PFuel /\ forall a, m = POk a -> (len (rest a) <= n)%nat.
Lemma ends_bind : forall {A B} (m : pres A) (k : A -> pres B) ra rb n0 n, ends m ra n0 ->
  (forall a, (len (ra a) <= n0)%nat -> ends (k a) rb n) -> ends (pbind m k) rb n.
Proof.
  intros A B m k ra rb n0 n (F & L) H. destruct m as [a| | |]; cbn; try (split; [congruence|intros; discriminate]).
  apply H. apply L. auto.
Qed.
Lemma ends_ok : forall {A} (a : A) r n, (len (r a) <= n)%nat -> ends (POk a) r n.
Proof. intros A a r n H. split; [discriminate|]. intros b [= <-]. auto. Qed.
Lemma ends_err : forall {A} (r : A -> list Z) n, ends PErr r n.
Proof. split; [discriminate|intros; discriminate]. Qed.
Lemma ends_ub : forall {A} (r : A -> list Z) n, ends PUB r n.
Proof. split; [discriminate|intros; discriminate]. Qed.
Lemma ends_le : forall {A} (m : pres A) r n n', ends m r n -> (n <= n')%nat -> ends m r n'.
Proof. intros A m r n n' (F & L) H. split; auto. intros a E. specialize (L a E). lia. Qed.
Lemma drop_le : forall s, (len (drop1 s) <= len s)%nat.
Proof. intros [|c s]; cbn; lia. Qed.
Lemma drop_lt : forall s c, peek s = c -> c <> -1 -> (S (len (drop1 s)) = len s)%nat.
Proof. intros [|d s] c H N; cbn in *; lia. Qed.

Local Hint Resolve ends_err ends_ub : core.

Lemma hex4_ends : forall k v s, ends (hex4 k v s) snd (len s).
Proof.
  induction k as [|k IH]; intros v s; cbn [hex4]; [apply ends_ok; cbn; lia|].
  destruct (is_xdigit (peek s)); auto. eapply ends_le; [apply IH|apply drop_le].
Qed.
Lemma braced_ends : forall s v b, ends (braced v b s) snd (len s).
Proof.
  induction s as [|c s IH]; intros v b; cbn [braced]; auto.
  destruct (c =? 125); [destruct b; auto; apply ends_ok; cbn; lia|]. destruct (is_xdigit c); auto.
  destruct (0x10ffff <? v * 16 + hexval c); auto. eapply ends_le; [apply IH|cbn; lia].
Qed.
Lemma uc_seq_ends : forall u s, ends (uc_seq u s) snd (len s).
Proof.
  intros u s. unfold uc_seq. destruct u; [|apply hex4_ends].
  destruct (peek s =? 123); [eapply ends_le; [apply braced_ends|apply drop_le]|].
  eapply ends_bind; [apply hex4_ends|]. intros [c1 r] L. cbn in L.
  destruct (negb (is_lead c1)); [apply ends_ok; auto|].
  destruct ((peek r =? 92) && (peek (drop1 r) =? 117)); [|apply ends_ok; auto].
  eapply ends_bind; [apply hex4_ends|]. intros [c2 r2] L2. cbn in L2.
  pose proof (drop_le r). pose proof (drop_le (drop1 r)).
  destruct (is_trail c2); apply ends_ok; cbn; lia.
Qed.
Lemma uc_ends : forall s, ends (uc s) snd (len s - 1).
Proof.
  intros s. unfold uc. destruct (peek s =? 92) eqn:E.
  - destruct (peek (drop1 s) =? 117); auto. eapply ends_le; [apply uc_seq_ends|].
    pose proof (drop_le (drop1 s)). pose proof (drop_lt s 92 ltac:(lia) ltac:(lia)). lia.
  - destruct (peek s =? -1) eqn:F; auto. apply ends_ok. cbn. pose proof (drop_lt s (peek s) eq_refl ltac:(lia)). lia.
Qed.

Section p.
  Variable P : penv.
  Lemma prop_text_ends : forall alpha s, ends (prop_text alpha s) snd (len s).
  Proof.
    induction s as [|c s IH]; cbn [prop_text]; auto.
    destruct ((c =? 125) || (alpha && (c =? 61))); [apply ends_ok; cbn; lia|].
    unfold ctype. destruct (255 <? c); [apply ends_ub|]. cbn [pbind].
    destruct (is_alpha c || (negb alpha && StrModel.is_digit c) || (c =? 95)); auto.
    eapply ends_bind; [exact IH|]. intros [[t e] r] L. cbn in L. apply ends_ok. cbn. lia.
  Qed.
  Lemma prop_ends : forall s, ends (prop_escape P s) snd (len s).
  Proof.
    intros s. unfold prop_escape. eapply ends_bind; [apply prop_text_ends|]. intros [[n e] r] L. cbn in L.
    eapply (ends_bind _ _ snd snd (len r)).
    - destruct (e =? 61); [|apply ends_ok; cbn; lia]. eapply ends_bind; [apply prop_text_ends|].
      intros [[v e'] r2] L2. cbn in L2. apply ends_ok. cbn. lia.
    - intros [v r2] L2. cbn in L2. destruct (prop_lookup P n v) as [[p x]|]; auto. apply ends_ok. cbn. lia.
  Qed.
  Lemma id_ends : forall c s n, (len s <= n)%nat -> ends (let* d := identity P c in POk (CNormal d, s)) snd n.
  Proof.
    intros c s n L. unfold identity. destruct (p_u P).
    - destruct (syntax_char c); cbn [pbind]; auto. apply ends_ok. auto.
    - destruct (c =? -1); cbn [pbind]; auto. apply ends_ok. auto.
  Qed.
  Lemma escape_ends : forall c s, ends (escape P c s) snd (len s).
  Proof.
    intros c s. unfold escape.
    repeat match goal with |- ends (if ?b then POk _ else _) _ _ => destruct b; [apply ends_ok; cbn; lia|] end.
    destruct (c =? 120).
    { destruct (is_xdigit (peek s) && is_xdigit (peek (drop1 s))); [|apply id_ends; lia].
      apply ends_ok. cbn. pose proof (drop_le s). pose proof (drop_le (drop1 s)). lia. }
    destruct (c =? 117).
    { eapply ends_bind; [apply uc_seq_ends|]. intros [d r] L. apply ends_ok. auto. }
    destruct (c =? 99).
    { destruct (is_alpha (peek s)); [|apply id_ends; lia]. apply ends_ok. cbn. apply drop_le. }
    destruct (c =? 48).
    { destruct (StrModel.is_digit (peek s)); [apply id_ends; lia|]. apply ends_ok. cbn. lia. }
    destruct (((c =? 112) || (c =? 80)) && (peek s =? 123)); [|apply id_ends; lia].
    eapply ends_bind; [apply prop_ends|]. intros [[p v] r] L. cbn in L. apply ends_ok. cbn. pose proof (drop_le s). lia.
  Qed.
  Lemma class_atom_ends : forall s, s <> [] -> ends (class_atom P s) snd (len s - 1).
  Proof.
    intros s N. unfold class_atom. destruct s as [|c s]; [congruence|]. cbn [peek drop1 length].
    pose proof (drop_le s). replace (S (len s) - 1)%nat with (len s) by lia.
    destruct (c =? 92); [|apply ends_ok; cbn; lia].
    destruct (peek s =? 98); [apply ends_ok; cbn; lia|]. eapply ends_le; [apply escape_ends|]. lia.
  Qed.
  Lemma items_ends : forall f s, (len s < f)%nat -> ends (class_items P f s) snd (len s).
  Proof.
    induction f as [|f IH]; intros s Hf; [lia|]. cbn [class_items]. destruct s as [|c s]; auto.
    destruct (c =? 93); [apply ends_ok; cbn; lia|].
    eapply ends_bind; [apply class_atom_ends; discriminate|]. intros [k r1] L. cbn [snd length] in *.
    destruct (peek r1 =? 45) eqn:E.
    - destruct k; auto. destruct (peek (drop1 r1) =? 93).
      + eapply ends_bind; [apply IH; lia|]. intros [l r3] L3. cbn in L3. apply ends_ok. cbn. lia.
      + destruct (drop1 r1) as [|d q] eqn:Dq.
        * cbn. rewrite orb_true_r. apply ends_err.
        * eapply ends_bind; [apply class_atom_ends; discriminate|]. intros [k2 r3] L3. pose proof (drop_le r1). rewrite Dq in *. cbn [snd length] in *.
          destruct k2; auto. destruct ((c0 <? 0) || (c1 <? 0)); auto. destruct (c1 <? c0); auto.
          eapply ends_bind; [apply IH; lia|]. intros [l r4] L4. cbn in L4. apply ends_ok. cbn. lia.
    - eapply ends_bind; [apply IH; lia|]. intros [l r3] L3. cbn in L3. apply ends_ok. cbn. lia.
  Qed.
  Lemma class_ends : forall s, ends (class P s) snd (len s).
  Proof.
    intros s. unfold class. eapply ends_bind; [apply items_ends; lia|]. intros [l r] L. apply ends_ok. cbn in *.
    pose proof (drop_le s). destruct (peek s =? 94); lia.
  Qed.
  Lemma name_rest_ends : forall f s, (len s < f)%nat -> ends (name_rest P f s) snd (len s).
  Proof.
    induction f as [|f IH]; intros s Hf; [lia|]. cbn [name_rest].
    destruct (peek s =? 62); [apply ends_ok; apply drop_le|]. destruct (peek s =? -1) eqn:E; auto.
    pose proof (drop_lt s (peek s) eq_refl ltac:(lia)).
    eapply ends_bind; [apply uc_ends|]. intros [c r] L. cbn in L. destruct (id_continue P c); auto.
    eapply ends_bind; [apply IH; lia|]. intros [l r2] L2. cbn in L2. apply ends_ok. cbn. lia.
  Qed.
  Lemma name_ends : forall s, ends (name P s) snd (len s).
  Proof.
    intros s. unfold name. destruct (peek s =? 60); auto. pose proof (drop_le s).
    eapply ends_bind; [apply uc_ends|]. intros [c r] L. cbn in L. destruct (id_start P c); auto.
    eapply ends_bind; [apply name_rest_ends; lia|]. intros [l r2] L2. cbn in L2. apply ends_ok. cbn. lia.
  Qed.
  Lemma number_ends : forall lim s v, ends (number lim v s) snd (len s).
  Proof.
    induction s as [|c s IH]; intros v; cbn [number]; [apply ends_ok; cbn; lia|].
    destruct (StrModel.is_digit c); [|apply ends_ok; cbn; lia]. destruct (lim <? v * 10 + (c - 48)); auto.
    eapply ends_le; [apply IH|]. cbn. lia.
  Qed.
  Lemma decimal_ends : forall s, ends (decimal s) snd (len s).
  Proof. intros s. unfold decimal. destruct (StrModel.is_digit (peek s)); auto. eapply ends_le; [apply number_ends|apply drop_le]. Qed.
  Lemma quantifier_ends : forall s, ends (quantifier s) snd (len s).
  Proof.
    intros s. unfold quantifier.
    assert (L : forall a b q, (len q <= len s)%nat -> ends (let '(g, r') := lazy_mark q in @POk (nat * option nat * bool * list Z) (a, b, g, r')) snd (len s)).
    { intros a b q Hq. unfold lazy_mark. pose proof (drop_le q). destruct (peek q =? 63); apply ends_ok; cbn; lia. }
    pose proof (drop_le s).
    destruct (peek s =? 63); [apply L; auto|]. destruct (peek s =? 43); [apply L; auto|]. destruct (peek s =? 42); [apply L; auto|].
    destruct (peek s =? 123); [|apply ends_ok; cbn; lia].
    eapply ends_bind; [apply decimal_ends|]. intros [mn r] Lr. cbn in Lr. pose proof (drop_le r). pose proof (drop_le (drop1 r)).
    destruct (peek r =? 44).
    - destruct (peek (drop1 r) =? 125); [apply L; lia|].
      eapply ends_bind; [apply decimal_ends|]. intros [mx r2] Lr2. cbn in Lr2. pose proof (drop_le r2).
      destruct (mx <? mn); auto. destruct (peek r2 =? 125); auto. apply L. lia.
    - destruct (peek r =? 125); auto. apply L. lia.
  Qed.

  Lemma total : forall f,
    (forall path s st, s <> [] -> (4 * len s <= f)%nat -> ends (p_atom P f path s st) (fun x => snd (fst x)) (len s - 1)) /\
    (forall path s st, s <> [] -> (4 * len s + 1 <= f)%nat -> ends (p_term P f path s st) (fun x => snd (fst x)) (len s - 1)) /\
    (forall path ai ti s st, (4 * len s + 2 <= f)%nat -> ends (p_alt P f path ai ti s st) (fun x => snd (fst x)) (len s)) /\
    (forall path ai s st, (4 * len s + 3 <= f)%nat -> ends (p_pat P f path ai s st) (fun x => snd (fst x)) (len s)).
  Proof.
    induction f as [|f (IHa & IHt & IHl & IHp)].
    { split; [intros path [|c s] st N L; [congruence|cbn in L; lia]|]. split; [intros; lia|]. split; intros; lia. }
    assert (Sub : forall path s st (mk : pattern -> atom) (ia : bool) n, (4 * len s + 3 <= f)%nat -> (len s <= n)%nat ->
      ends (let* (p, r, st') := p_pat P f path O s st in
       let* r' := close_paren r in POk (mk p, ia, r', st')) (fun x => snd (fst x)) n).
    { intros path s st mk ia n Hf Hn. eapply ends_bind; [apply IHp; auto|]. intros [[p r] st'] L. cbn in L.
      unfold close_paren. pose proof (drop_le r). destruct (peek r =? 41); cbn [pbind]; auto. apply ends_ok. cbn. lia. }
    split; [|split; [|split]].
    - intros path s st N Hf. destruct s as [|c s]; [congruence|]. cbn [length] in *. replace (S (len s) - 1)%nat with (len s) by lia.
      cbn [p_atom peek drop1]. pose proof (drop_le s). pose proof (drop_le (drop1 s)). pose proof (drop_le (drop1 (drop1 s))).
      destruct (c =? 46); [apply ends_ok; cbn; lia|]. destruct (c =? 94); [apply ends_ok; cbn; lia|].
      destruct (c =? 36); [apply ends_ok; cbn; lia|].
      destruct (c =? 91).
      { eapply ends_bind; [apply class_ends|]. intros [a r] L. cbn in L. apply ends_ok. cbn. lia. }
      destruct (c =? 40).
      { destruct (peek s =? 63).
        - destruct (peek (drop1 s) =? 58); [apply Sub; lia|]. destruct (peek (drop1 s) =? 61); [apply Sub; lia|].
          destruct (peek (drop1 s) =? 33); [apply Sub; lia|]. destruct (peek (drop1 s) =? 60); auto.
          destruct (peek (drop1 (drop1 s)) =? 61); [apply Sub; lia|]. destruct (peek (drop1 (drop1 s)) =? 33); [apply Sub; lia|].
          eapply ends_bind; [apply name_ends|]. intros [n r2] L. cbn in L.
          destruct (intern (open_group st) n true) as [i st2]. destruct (dup_name st2 i path); auto. apply Sub; lia.
        - apply Sub; lia. }
      destruct (c =? 92).
      { destruct (peek s =? 98); [apply ends_ok; cbn; lia|]. destruct (peek s =? 66); [apply ends_ok; cbn; lia|].
        destruct ((49 <=? peek s) && (peek s <=? 57)).
        { eapply ends_bind; [apply number_ends|]. intros [v r] L. cbn in L. apply ends_ok. cbn. lia. }
        destruct (p_n P && (peek s =? 107)).
        { eapply ends_bind; [apply name_ends|]. intros [n r] L. cbn in L. destruct (intern st n false). apply ends_ok. cbn. lia. }
        eapply ends_bind; [apply escape_ends|]. intros [k r] L. cbn in L. apply ends_ok. cbn. lia. }
      destruct (existsb (Z.eqb c) [63; 42; 43; 124; 123; 41; 93; 125]); auto. apply ends_ok. cbn. lia.
    - intros path s st N Hf. rewrite p_term_S. eapply ends_bind; [apply IHa; auto; lia|]. intros [[[a b] r] st1] L. cbn in L.
      eapply (ends_bind _ _ snd). { destruct b; [apply quantifier_ends|]. apply ends_ok. cbn. auto. }
      intros [[[mn mx] g] r2] L2. cbn in L2. apply ends_ok. cbn. lia.
    - intros path ai ti s st Hf. rewrite p_alt_S. destruct ((peek s =? 124) || (peek s =? -1) || (peek s =? 41)) eqn:E.
      { apply ends_ok. cbn. lia. }
      assert (N : s <> []) by (intros ->; cbn in E; discriminate). assert (1 <= len s)%nat by (destruct s; [congruence|cbn; lia]).
      eapply ends_bind; [apply IHt; auto; lia|]. intros [[t r] st1] L. cbn in L.
      eapply ends_bind; [apply IHl; lia|]. intros [[l r2] st2] L2. cbn in L2. apply ends_ok. cbn. lia.
    - intros path ai s st Hf. rewrite p_pat_S. eapply ends_bind; [apply IHl; lia|]. intros [[l r] st1] L. cbn in L.
      destruct (peek r =? 124) eqn:E; [|apply ends_ok; cbn; lia]. pose proof (drop_lt r 124 ltac:(lia) ltac:(lia)).
      eapply ends_bind; [apply IHp; lia|]. intros [[p r2] st2] L2. cbn in L2. apply ends_ok. cbn. lia.
  Qed.
  Theorem parse_total : forall s, parse P s <> PFuel.
  Proof.
    intros s. unfold parse. destruct (total (4 * len s + 4)) as (_ & _ & _ & T).
    apply pbind_fuel; [apply T; lia|]. intros [[p r] st] _. destruct r; [|discriminate].
    destruct (existsb _ (s_brs st)); [discriminate|]. destruct (existsb _ (s_names st)); discriminate.
  Qed.
End p.
Theorem compile_total : forall P s, compile P s <> PFuel.
Proof.
  intros P s. unfold compile. apply pbind_fuel; [apply parse_total|]. intros [p st] _.
  destruct (negb (p_n P) && negb (match s_names st with [] => true | _ => false end)); [apply parse_total|discriminate].
Qed.
