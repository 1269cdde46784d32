(** Proofs about the for-in iterator. *)
From Coq Require Import List ZArith Bool Lia.
Import ListNotations.
From Verif Require KeyModel KeySpec KeyProofs.
From Verif Require Import ForInModel ForInSpec.
Local Open Scope Z_scope.

Lemma same_spec a : forall b, same a b = true <-> a = b.
Proof.
  induction a as [|x a IH]; intros [|y b]; cbn; split; try discriminate; auto.
  - intros H. apply andb_true_iff in H as (E & H). apply Z.eqb_eq in E. apply IH in H. congruence.
  - intros H. injection H as -> ->. rewrite Z.eqb_refl. apply IH. reflexivity.
Qed.

Lemma decimal_inj n m : 0 <= n < 0xffffffff -> 0 <= m < 0xffffffff ->
  KeyModel.decimal n = KeyModel.decimal m -> n = m.
Proof.
  intros Hn Hm E. destruct (KeyProofs.decimal_name _ Hn) as (_ & _ & _ & A & _).
  destruct (KeyProofs.decimal_name _ Hm) as (_ & _ & _ & B & _). congruence.
Qed.

Lemma member_spec s l : member s l = true <-> In s l.
Proof. unfold member. destruct (in_dec name_dec s l); split; congruence || auto. Qed.
Lemma member_false s l : member s l = false <-> ~ In s l.
Proof. unfold member. destruct (in_dec name_dec s l); split; congruence || tauto. Qed.

(** *** Arrays of chains *)
Lemma upd_length l : forall i x, length (upd l i x) = length l.
Proof. induction l; destruct i; cbn; auto. Qed.
Lemma upd_nth l : forall i x j, (i < length l)%nat ->
  nth j (upd l i x) [] = if Nat.eqb j i then x else nth j l [].
Proof.
  induction l as [|y l IH]; intros i x j H; cbn in H; [lia|].
  destruct i, j; cbn; auto. apply IH. lia.
Qed.
Lemma slot_lt n k : (0 < n)%nat -> (slot n k < n)%nat.
Proof. intros H. unfold slot. pose proof (Z.mod_pos_bound (code k) (Z.of_nat n)). lia. Qed.

Definition holds (t : table) (k : key) : Prop := exists b, In k (chain t b).
Definition sized (t : table) : Prop :=
  (0 < length (lists t))%nat /\ (entry_num t = 0%nat -> forall b, chain t b = []).
Lemma bucket_lt t k : sized t -> (bucket t k < length (lists t))%nat.
Proof.
  intros (H & _). unfold bucket. destruct (Nat.eqb_spec (length (lists t)) 1); [lia|].
  apply slot_lt. exact H.
Qed.

(** *** Rehashing *)
Lemma rehash_nth n ls k j : length ls = n -> (0 < n)%nat ->
  nth j (rehash n ls k) [] = if Nat.eqb j (slot n k) then k :: nth j ls [] else nth j ls [].
Proof.
  intros L H. unfold rehash. rewrite upd_nth by (rewrite L; apply slot_lt; exact H).
  destruct (Nat.eqb_spec j (slot n k)); subst; auto.
Qed.
Lemma rehash_length n ls k : length (rehash n ls k) = length ls.
Proof. apply upd_length. Qed.
Lemma rehash_chain n c : forall ls, length ls = n -> (0 < n)%nat ->
  length (fold_left (rehash n) c ls) = n /\
  forall j e, In e (nth j (fold_left (rehash n) c ls) []) <->
    In e (nth j ls []) \/ (In e c /\ j = slot n e).
Proof.
  induction c as [|k c IH]; intros ls L H; cbn [fold_left].
  - split; [exact L|]. intros. cbn. tauto.
  - destruct (IH (rehash n ls k)) as (L' & Q); [rewrite rehash_length; exact L|exact H|].
    split; [exact L'|]. intros j e. rewrite Q, rehash_nth by auto.
    destruct (Nat.eqb_spec j (slot n k)) as [->|N]; cbn [In]; intuition (subst; auto; congruence).
Qed.
Lemma rehash_chains n cs : forall ls, length ls = n -> (0 < n)%nat ->
  length (fold_left (fun ls c => fold_left (rehash n) c ls) cs ls) = n /\
  forall j e, In e (nth j (fold_left (fun ls c => fold_left (rehash n) c ls) cs ls) []) <->
    In e (nth j ls []) \/ ((exists c, In c cs /\ In e c) /\ j = slot n e).
Proof.
  induction cs as [|c cs IH]; intros ls L H; cbn [fold_left].
  - split; [exact L|]. intros. split; [auto|]. intros [A|((c & [] & _) & _)]; auto.
  - destruct (rehash_chain n c ls L H) as (L1 & Q1). destruct (IH _ L1 H) as (L2 & Q2).
    split; [exact L2|]. intros j e. rewrite Q2, Q1. split.
    + intros [[A|(A & E)]|((c' & A & B) & E)]; [auto| |].
      * right. split; [|exact E]. exists c. cbn. auto.
      * right. split; [|exact E]. exists c'. cbn. auto.
    + intros [A|((c' & [<-|A] & B) & E)]; eauto 8.
Qed.

Lemma in_chain t e : holds t e <-> exists c, In c (lists t) /\ In e c.
Proof.
  unfold holds, chain. split.
  - intros (b & H). destruct (Nat.lt_ge_cases b (length (lists t))) as [L|L].
    + exists (nth b (lists t) []). split; [apply nth_In; exact L|exact H].
    + rewrite nth_overflow in H by exact L. destruct H.
  - intros (c & H & E). apply (In_nth _ _ []) in H as (b & _ & <-). eauto.
Qed.

Lemma expand_spec t : sized t ->
  sized (expand t) /\ length (lists (expand t)) <> 1%nat /\
  (forall b e, In e (chain (expand t) b) <-> holds t e /\ b = bucket (expand t) e).
Proof.
  intros (L & Z0). unfold expand. set (n := Nat.max (entry_num t) 8).
  destruct (rehash_chains n (lists t) (repeat [] n) (repeat_length _ _) ltac:(lia)) as (L' & Q).
  assert (Q' : forall b e, In e (chain (expand t) b) <-> holds t e /\ b = bucket (expand t) e).
  { intros b e. unfold chain, bucket, expand. cbn [lists]. fold n. rewrite L'.
    destruct (Nat.eqb_spec n 1); [lia|]. rewrite Q, in_chain.
    assert (nth b (repeat (@nil key) n) [] = []) as ->.
    { destruct (Nat.lt_ge_cases b n); [apply nth_repeat|apply nth_overflow; rewrite repeat_length; exact H]. }
    cbn [In]. tauto. }
  split; [split|split].
  - cbn [lists]. rewrite L'. lia.
  - cbn [entry_num]. intros E b.
    destruct (chain (mkT _ _) b) as [|e c] eqn:X; [reflexivity|]. exfalso.
    assert (H : In e (chain (expand t) b)) by (unfold expand; fold n; rewrite X; cbn; auto).
    apply Q' in H as ((b' & H) & _). rewrite (Z0 E) in H. destruct H.
  - cbn [lists]. rewrite L'. lia.
  - exact Q'.
Qed.

(** *** Keys in one form *)
Section Form.
  (** whether a name is listed as an index string *)
  Variable rep : list Z -> bool.

  Definition fits (k : key) : Prop :=
    match k with Idx n => key_ok k /\ rep (name k) = true | Str s => rep s = false | Sym _ => False end.

  (** While only index strings were looked up, all keys are index strings in
      their chains; afterwards all other keys are. *)
  Definition inv (idx : bool) (t : table) (vis : list (list Z)) : Prop :=
    sized t /\
    (forall s, In s vis <-> exists e, holds t e /\ name e = s) /\
    (forall b e, In e (chain t b) ->
       match e with Sym _ => False | _ => True end /\
       (rep (name e) = false -> e = Str (name e) /\ b = bucket t e) /\
       (idx = true -> fits e /\ (exists n, e = Idx n) /\ b = bucket t e)).

  Definition lookable (idx : bool) (k : key) : Prop :=
    fits k /\ if idx then exists n, k = Idx n else exists s, k = Str s.

  Lemma inv_weaken t vis : inv true t vis -> inv false t vis.
  Proof.
    intros (A & B & C). split; [exact A|]. split; [exact B|]. intros b e H.
    destruct (C b e H) as (D & E & F). split; [exact D|]. split; [exact E|]. discriminate.
  Qed.

  Lemma walk_idx n c : (forall e, In e c -> fits e /\ exists m, e = Idx m) -> fits (Idx n) ->
    exists f, walk c (Idx n) = (f, c, Idx n) /\ (f = true <-> exists e, In e c /\ name e = name (Idx n)).
  Proof.
    induction c as [|e c IH]; intros H K.
    - exists false. split; [reflexivity|]. split; [discriminate|]. intros (? & [] & _).
    - destruct (H e (or_introl eq_refl)) as (Fe & m & ->). destruct IH as (f & W & Q); [intros; apply H; cbn; auto|exact K|].
      cbn [walk string_equal]. destruct (Z.eqb_spec m n) as [->|N].
      + exists true. split; [reflexivity|]. split; [|auto]. intros _. exists (Idx n). cbn; auto.
      + rewrite W. exists f. split; [reflexivity|]. rewrite Q. split.
        * intros (e & A & B). exists e. cbn; auto.
        * intros (e & [<-|A] & B); [|exists e; auto]. exfalso. apply N.
          destruct Fe as (Fe & _). destruct K as (K & _). cbn in B, Fe, K. eapply decimal_inj; eauto.
  Qed.

  (** the keys of a chain after a walk with a string *)
  Lemma walk_str s c : (forall e, In e c -> match e with Sym _ => False | _ => True end) ->
    exists f c', walk c (Str s) = (f, c', Str s) /\
      (f = true <-> exists e, In e c /\ name e = s) /\
      map name c' = map name c /\
      (forall e, In e c' -> In e c \/ e = Str (name e)) /\
      (forall x, In (Str x) c -> In (Str x) c').
  Proof.
    induction c as [|e c IH]; intros H.
    - exists false, []. split; [reflexivity|]. split; [|repeat split; auto].
      split; [discriminate|]. intros (? & [] & _).
    - destruct IH as (f & c' & W & Q & M & N & X); [intros; apply H; cbn; auto|].
      assert (Hs : string_equal e (Str s) = (same (name e) s, normal e, Str s)).
      { destruct e; reflexivity. }
      assert (Hn : name (normal e) = name e) by (destruct e; reflexivity).
      assert (Hc : normal e = Str (name e)).
      { specialize (H e (or_introl eq_refl)). destruct e; [reflexivity|reflexivity|contradiction]. }
      cbn [walk]. rewrite Hs. destruct (same (name e) s) eqn:E.
      + apply same_spec in E. exists true, (normal e :: c). split; [reflexivity|]. split; [|split; [|split]].
        * split; auto. intros _. exists e. cbn; auto.
        * cbn. congruence.
        * intros e' [<-|A]; cbn; auto. right. congruence.
        * intros x [->|A]; cbn; auto.
      + rewrite W. exists f, (normal e :: c'). split; [reflexivity|]. split; [|split; [|split]].
        * rewrite Q. split; intros (e' & A & B).
          -- exists e'. cbn; auto.
          -- destruct A as [<-|A]; [|exists e'; auto]. exfalso.
             assert (same (name e) s = true) by (apply same_spec; exact B). congruence.
        * cbn. congruence.
        * intros e' [<-|A]; [right; congruence|]. destruct (N e' A); cbn; auto.
        * intros x [->|A]; cbn; auto.
  Qed.

  Lemma chain_upd t b c n j : (b < length (lists t))%nat ->
    chain (mkT (upd (lists t) b c) n) j = if Nat.eqb j b then c else chain t j.
  Proof. intros H. unfold chain. cbn [lists]. apply upd_nth. exact H. Qed.
  Lemma bucket_upd t b c n k : bucket (mkT (upd (lists t) b c) n) k = bucket t k.
  Proof. unfold bucket. cbn [lists]. rewrite upd_length. reflexivity. Qed.

  Lemma bucket_name t k k' : k = k' -> bucket t k = bucket t k'.
  Proof. intros ->. reflexivity. Qed.

  (** a lookup finds exactly the visited names *)
  Lemma lookup_ok idx t vis k : inv idx t vis -> lookable idx k ->
    exists t' pe, lookup t k = (member (name k) vis, t', k, pe) /\ inv idx t' vis /\
      (forall b, pe = Some b -> b = bucket t' k).
  Proof.
    intros I (Fk & Lk). pose proof I as (Sz & V & C). unfold lookup.
    destruct (Nat.eqb_spec (entry_num t) 0) as [E|E].
    - assert (member (name k) vis = false) as ->.
      { apply member_false. intros H. apply V in H as (e & (b & H) & _).
        destruct Sz as (_ & Z0). rewrite (Z0 E) in H. destruct H. }
      exists t, None. split; [reflexivity|]. split; [exact I|]. discriminate.
    - remember (bucket t k) as b eqn:Hb.
      assert (Lb : (b < length (lists t))%nat) by (subst b; apply bucket_lt; exact Sz).
      assert (W : exists f c', walk (chain t b) k = (f, c', k) /\
        (f = true <-> exists e, In e (chain t b) /\ name e = name k) /\
        map name c' = map name (chain t b) /\
        (forall e, In e c' -> In e (chain t b) \/ (idx = false /\ e = Str (name e))) /\
        (forall x, In (Str x) (chain t b) -> In (Str x) c')).
      { destruct idx.
        - destruct Lk as (n & ->).
          destruct (walk_idx n (chain t b)) as (f & W & Q); [|exact Fk|].
          + intros e He. destruct (C _ _ He) as (_ & _ & D). destruct (D eq_refl) as (D1 & D2 & _). auto.
          + exists f, (chain t b). split; [exact W|]. split; [exact Q|]. auto.
        - destruct Lk as (s & ->).
          destruct (walk_str s (chain t b)) as (f & c' & W & Q & M & N & X).
          + intros e He. apply (C _ _ He).
          + exists f, c'. split; [exact W|]. split; [exact Q|]. split; [exact M|]. split; [|exact X].
            intros e He. destruct (N e He); auto. }
      destruct W as (f & c' & W & Q & M & N & X). rewrite W.
      assert (Names : forall s, (exists e, In e c' /\ name e = s) <-> (exists e, In e (chain t b) /\ name e = s)).
      { intros s. split; intros (e & A & B).
        - assert (H : In s (map name c')) by (apply in_map_iff; eauto). rewrite M in H.
          apply in_map_iff in H as (e' & B' & A'). eauto.
        - assert (H : In s (map name (chain t b))) by (apply in_map_iff; eauto). rewrite <- M in H.
          apply in_map_iff in H as (e' & B' & A'). eauto. }
      assert (Hf : f = member (name k) vis).
      { apply eq_true_iff_eq. rewrite Q, member_spec, V. split.
        - intros (e & A & B). exists e. split; [exists b; exact A|exact B].
        - intros (e & (b' & A) & B). destruct (C _ _ A) as (D0 & D1 & D2).
          destruct idx.
          + destruct (D2 eq_refl) as (Fe & (m & ->) & D3). destruct Lk as (n & ->).
            assert (m = n) as ->. { destruct Fe as (Fe & _). destruct Fk as (Fk & _). cbn in *. eapply decimal_inj; eauto. }
            exists (Idx n). subst b' b. auto.
          + destruct Lk as (s & ->). cbn in Fk, B. destruct D1 as (D1 & D3); [congruence|].
            exists e. split; [|exact B]. rewrite D1, B in D3. subst b' b. exact A. }
      rewrite Hf. eexists _, _. split; [reflexivity|]. split; [split; [|split]|].
      + destruct Sz as (S1 & S2). split; [cbn [lists]; rewrite upd_length; exact S1|].
        cbn [entry_num]. intros. contradiction.
      + intros s. rewrite V. split.
        * intros (e & (b' & A) & B). destruct (Nat.eqb_spec b' b) as [->|Nb].
          -- destruct (proj2 (Names s)) as (e' & A' & B'); [eauto|]. exists e'. split; [|exact B'].
             exists b. rewrite chain_upd, Nat.eqb_refl by exact Lb. exact A'.
          -- exists e. split; [|exact B]. exists b'. rewrite chain_upd by exact Lb.
             destruct (Nat.eqb_spec b' b); [contradiction|exact A].
        * intros (e & (b' & A) & B). rewrite chain_upd in A by exact Lb. destruct (Nat.eqb_spec b' b) as [Eb|Nb].
          -- destruct (proj1 (Names s)) as (e' & A' & B'); [eauto|]. exists e'. split; [exists b; exact A'|exact B'].
          -- exists e. split; [exists b'; exact A|exact B].
      + intros b' e A. rewrite chain_upd in A by exact Lb. rewrite bucket_upd.
        destruct (Nat.eqb_spec b' b) as [->|Nb]; [|apply C; exact A].
        destruct (N e A) as [A'|(-> & D)]; [apply C; exact A'|].
        split; [rewrite D; exact Logic.I|]. split; [|discriminate]. intros R. split; [exact D|].
        destruct (proj1 (Names (name e))) as (e' & A' & B'); [eauto|].
        destruct (C _ _ A') as (_ & D1 & _). rewrite B' in D1. destruct (D1 R) as (D2 & D3).
        rewrite D, <- D2. exact D3.
      + intros b' E'. injection E' as <-. rewrite bucket_upd. exact Hb.
  Qed.

  Lemma insert_end idx t vis k b front back : inv idx t vis -> lookable idx k ->
    b = bucket t k -> chain t b = front ++ back ->
    inv idx (mkT (upd (lists t) b (front ++ k :: back)) (S (entry_num t))) (vis ++ [name k]).
  Proof.
    intros (Sz & V & C) (Fk & Lk) -> Ec. pose proof (bucket_lt _ k Sz) as Lb.
    split; [|split].
    - destruct Sz as (S1 & S2). split; [cbn [lists]; rewrite upd_length; exact S1|]. discriminate.
    - intros s. rewrite in_app_iff, V. cbn [In]. split.
      + intros [(e & (b' & A) & B)|[<-|[]]].
        * exists e. split; [|exact B]. exists b'. rewrite chain_upd by exact Lb.
          destruct (Nat.eqb_spec b' (bucket t k)) as [->|]; [|exact A].
          rewrite Ec in A. apply in_app_iff in A as [A|A]; apply in_app_iff; cbn; auto.
        * exists k. split; [|reflexivity]. exists (bucket t k). rewrite chain_upd, Nat.eqb_refl by exact Lb.
          apply in_app_iff; cbn; auto.
      + intros (e & (b' & A) & B). rewrite chain_upd in A by exact Lb.
        destruct (Nat.eqb_spec b' (bucket t k)) as [Eb|Nb]; [|left; exists e; split; [exists b'; exact A|exact B]].
        apply in_app_iff in A as [A|[<-|A]]; auto; left; exists e; (split; [|exact B]); exists (bucket t k);
          rewrite Ec; apply in_app_iff; auto.
    - intros b' e A. rewrite chain_upd in A by exact Lb. rewrite bucket_upd.
      destruct (Nat.eqb_spec b' (bucket t k)) as [->|]; [|apply C; exact A].
      assert (A' : e = k \/ In e (chain t (bucket t k))).
      { rewrite Ec, in_app_iff. apply in_app_iff in A as [A|[A|A]]; auto. }
      destruct A' as [->|A']; [|apply C; exact A'].
      destruct idx; destruct Lk as (x & ->); cbn in Fk |- *.
      + split; [exact I|]. split; [intros R; destruct Fk; congruence|]. intros _. split; [exact Fk|]. eauto.
      + split; [exact I|]. split; [auto|]. discriminate.
  Qed.

  Lemma insert_ok idx t vis k pe : inv idx t vis -> lookable idx k ->
    (forall b, pe = Some b -> b = bucket t k) -> inv idx (insert t k pe) (vis ++ [name k]).
  Proof.
    intros I Lk P. unfold insert.
    destruct (length (lists t) * 3 <=? entry_num t)%nat.
    - destruct I as (Sz & V & C). destruct (expand_spec t Sz) as (Sz' & _ & Q).
      apply (insert_end idx (expand t) vis k _ []); auto. split; [exact Sz'|]. split.
      + intros s. rewrite V. split; intros (e & A & B); exists e; (split; [|exact B]).
        * exists (bucket (expand t) e). apply Q. auto.
        * destruct A as (b & A). apply Q in A as (A & _). exact A.
      + intros b e A. apply Q in A as ((b' & A) & ->). destruct (C _ _ A) as (D1 & D2 & D3).
        split; [exact D1|]. split.
        * intros R. destruct (D2 R) as (D4 & _). auto.
        * intros R. destruct (D3 R) as (D4 & D5 & _). auto.
    - destruct pe as [b|].
      + rewrite (P b eq_refl). apply (insert_end idx t vis k _ (chain t (bucket t k)) []); auto.
        rewrite app_nil_r. reflexivity.
      + apply (insert_end idx t vis k _ []); auto.
  Qed.

  (** *** The loop over the keys *)

  (** the keys still to come: index strings first *)
  Definition stage (idx : bool) (ks : list key) : Prop :=
    (forall k, In k ks -> match k with Sym _ => True | _ => fits k end) /\
    if idx then index_first ks else forall n, ~ In (Idx n) ks.

  Lemma stage_tail idx k ks : stage idx (k :: ks) -> stage idx ks.
  Proof.
    intros (A & B). split; [intros; apply A; cbn; auto|]. destruct idx.
    - destruct k; cbn in B; tauto.
    - intros n H. apply (B n). cbn; auto.
  Qed.
  Lemma stage_look idx k ks t vis : stage idx (k :: ks) -> inv idx t vis ->
    match k with Sym _ => False | _ => True end ->
    exists idx', inv idx' t vis /\ lookable idx' k /\ stage idx' (k :: ks).
  Proof.
    intros (A & B) I N. pose proof (A k (or_introl eq_refl)) as F.
    destruct k as [n|s|y]; [| |contradiction].
    - exists idx. split; [exact I|]. split; [|split; auto]. split; [exact F|].
      destruct idx; [eauto|]. exfalso. apply (B n). cbn; auto.
    - exists false. split; [destruct idx; [apply inv_weaken|]; exact I|]. split; [split; [exact F|eauto]|].
      split; [exact A|]. intros n [H|H]; [discriminate|]. destruct idx.
      + cbn in B. destruct B as (B & _). exact (B n H).
      + apply (B n). cbn; auto.
  Qed.

  Lemma strings_syms ks : Forall (fun k => exists y, k = Sym y) ks -> strings ks = [].
  Proof. induction 1 as [|k ks (y & ->) F IH]; auto. Qed.
  Lemma stage_app idx l r : stage idx (l ++ r) -> exists idx', stage idx' r /\ (idx' = true -> idx = true).
  Proof.
    induction l as [|k l IH]; intros H; [exists idx; auto|]. apply IH. apply stage_tail with k. exact H.
  Qed.
  Lemma strings_split k ks : (exists y, k = Sym y) \/
    (match k with Sym _ => False | _ => True end /\ strings (k :: ks) = name k :: strings ks /\
     symbols_last (k :: ks) = symbols_last ks).
  Proof. destruct k; [right|right|left]; cbn; eauto. Qed.

  Definition leftover (ks : list key) (rem vis : list (list Z)) : Prop :=
    strings ks = rem \/ exists s, strings ks = s :: rem /\ In s vis.

  (** The questions to come are for keys of [ks] and of the answers. *)
  Lemma scan_same o ks : forall idx t vis a q,
    symbols_last ks -> stage idx (ks ++ listed a) -> inv idx t vis ->
    match scan o ks t a q, s_scan o (strings ks) vis a q with
    | Stop w q1, SStop w' q2 => w = w' /\ q1 = q2
    | Found s ks' t' a' q', SFound s' rem vis' a2 q2 =>
        s = s' /\ a' = a2 /\ q' = q2 /\ leftover ks' rem vis' /\ symbols_last ks' /\
        (length a' < length a)%nat /\
        exists idx', stage idx' (ks' ++ listed a') /\ inv idx' t' vis'
    | Fell ks' t' a' q', SFell vis' a2 q2 =>
        a' = a2 /\ q' = q2 /\ (length a' <= length a)%nat /\
        exists idx', stage idx' (listed a') /\ inv idx' t' vis'
    | _, _ => False
    end.
  Proof.
    induction ks as [|k ks IH]; intros idx t vis a q Sl St I.
    - cbn. split; [reflexivity|]. split; [reflexivity|]. split; [lia|]. eauto.
    - destruct (strings_split k ks) as [(y & ->)|(Nk & Es & Esl)].
      + cbn [scan strings]. rewrite strings_syms by exact Sl. cbn.
        split; [reflexivity|]. split; [reflexivity|]. split; [lia|].
        destruct (stage_app idx (Sym y :: ks) (listed a) St) as (idx' & S' & Im).
        destruct idx'; [rewrite (Im eq_refl) in I; eauto|].
        exists false. split; [exact S'|]. destruct idx; [apply inv_weaken|]; exact I.
      + rewrite Es. rewrite Esl in Sl. clear Es Esl.
        cbn [app] in St. destruct (stage_look _ _ _ _ _ St I Nk) as (ix & I' & Lk & S').
        destruct (lookup_ok _ _ _ _ I' Lk) as (t' & pe & E & I'' & P).
        assert (X : scan o (k :: ks) t a q =
          (if member (name k) vis then scan o ks t' a q
           else match a with
                | Err :: _ => Stop Threw (q ++ [QDesc o (name k)])
                | Desc None :: a => scan o ks t' a (q ++ [QDesc o (name k)])
                | Desc (Some e) :: a =>
                    if e then Found (name k) (k :: ks) (insert t' k pe) a (q ++ [QDesc o (name k)])
                    else scan o ks (insert t' k pe) a (q ++ [QDesc o (name k)])
                | _ => Stop Wait (q ++ [QDesc o (name k)])
                end)).
        { destruct k; [| |contradiction]; cbn [scan]; rewrite E; reflexivity. }
        rewrite X. cbn [s_scan]. clear X. pose proof (stage_tail _ _ _ S') as S2.
        destruct (member (name k) vis) eqn:Em; [apply (IH ix); auto|].
        destruct a as [|[ks0|[e|]|p|] a]; auto.
        * pose proof (insert_ok _ _ _ _ _ I'' Lk P) as I3. cbn [listed] in *. destruct e.
          -- split; [reflexivity|]. split; [reflexivity|]. split; [reflexivity|]. split; [|split; [|split]].
             ++ right. exists (name k). split; [destruct k; [reflexivity|reflexivity|contradiction]|].
                apply in_app_iff. cbn; auto.
             ++ destruct k; [exact Sl|exact Sl|contradiction].
             ++ cbn; lia.
             ++ exists ix. split; [exact S'|exact I3].
          -- specialize (IH ix _ _ a (q ++ [QDesc o (name k)]) Sl S2 I3).
             destruct (scan _ _ _ _ _), (s_scan _ _ _ _ _); try contradiction; auto;
               cbn [length]; intuition lia.
        * cbn [listed] in *. specialize (IH ix _ _ a (q ++ [QDesc o (name k)]) Sl S2 I'').
          destruct (scan _ _ _ _ _), (s_scan _ _ _ _ _); try contradiction; auto;
            cbn [length]; intuition lia.
  Qed.

  Lemma s_scan_skip o s rem vis a q : In s vis -> s_scan o (s :: rem) vis a q = s_scan o rem vis a q.
  Proof. intros H. cbn [s_scan]. rewrite (proj2 (member_spec s vis) H). reflexivity. Qed.

  Lemma scan_suffix o ks : forall t a q,
    match scan o ks t a q with
    | Stop w _ => w = Threw \/ w = Wait
    | Found _ _ _ a' _ => incl a' a
    | Fell _ _ a' _ => incl a' a
    end.
  Proof.
    induction ks as [|k ks IH]; intros t a q; [apply incl_refl|].
    assert (D : forall x y z, incl y z -> incl y ((x : answer) :: z)) by (intros; apply incl_tl; auto).
    assert (X : match scan o (k :: ks) t a q with
      | Stop w _ => w = Threw \/ w = Wait
      | Found _ _ _ a' _ => incl a' a
      | Fell _ _ a' _ => incl a' a
      end \/ exists y, k = Sym y).
    { destruct k as [n|s|y]; [| |right; eauto]; left; cbn [scan];
        (destruct (lookup _ _) as [[[[] t'] k'] pe]; [apply IH|]);
        (destruct a as [|[?|[[]|]|?|] a]; auto; [apply D, incl_refl| |];
         match goal with |- context [scan o ks ?t a ?q] => specialize (IH t a q); destruct (scan o ks t a q); auto end). }
    destruct X as [X|(y & ->)]; [exact X|]. cbn. apply incl_refl.
  Qed.

  (** *** Calls of next *)
  Definition rel (i : iter) (s : siter) (a : list answer) : Prop :=
    v i = s_obj s /\ visited i = s_was s /\
    exists idx, inv idx (tbl i) (s_vis s) /\
      (if visited i then leftover (keys i) (s_rem s) (s_vis s) /\ symbols_last (keys i) /\
                         stage idx (keys i ++ listed a)
       else stage idx (listed a)).

  Lemma next_same fuel : forall i s a q, rel i s a ->
    (forall ks, In (Keys ks) a -> symbols_last ks) -> (length a < fuel)%nat ->
    let '(o, i', a', q') := next fuel i a q in
    let '(o2, s', a2, q2) := s_next fuel s a q in
    o = o2 /\ q' = q2 /\ o <> Fuel /\
    forall n, o = Yield n -> a' = a2 /\ rel i' s' a' /\ (length a' < length a)%nat /\ incl a' a.
  Proof.
    induction fuel as [|fuel IH]; intros i s a q (Hv & Hw & idx & I & K) Sl L; [lia|].
    cbn [next s_next]. rewrite <- Hv. destruct (v i) as [o|]; [|repeat split; congruence].
    assert (Go : forall ks rem a0 q0, symbols_last ks -> stage idx (ks ++ listed a0) -> leftover ks rem (s_vis s) ->
      (length a0 <= length a)%nat -> incl a0 a ->
      let '(o1, i', a', q') :=
        match scan o ks (tbl i) a0 q0 with
        | Stop w q => (w, i, a0, q)
        | Found s ks t a q => (Yield s, mkI (Some o) true ks t, a, q)
        | Fell ks t a q =>
            match a with
            | Proto p :: a => next fuel (mkI p false ks t) a (q ++ [QProto o])
            | Err :: _ => (Threw, i, a, q ++ [QProto o])
            | _ => (Wait, i, a, q ++ [QProto o])
            end
        end in
      let '(o2, s', a2, q2) :=
        match s_scan o rem (s_vis s) a0 q0 with
        | SStop w q => (w, s, a0, q)
        | SFound n rem vis a q => (Yield n, mkS (Some o) true rem vis, a, q)
        | SFell vis a q =>
            match a with
            | Proto p :: a => s_next fuel (mkS p false [] vis) a (q ++ [QProto o])
            | Err :: _ => (Threw, s, a, q ++ [QProto o])
            | _ => (Wait, s, a, q ++ [QProto o])
            end
        end in
      o1 = o2 /\ q' = q2 /\ o1 <> Fuel /\
      forall n, o1 = Yield n -> a' = a2 /\ rel i' s' a' /\ (length a' < length a)%nat /\ incl a' a).
    { intros ks rem a0 q0 Hs Hst Hl Len Inc.
      assert (Er : s_scan o rem (s_vis s) a0 q0 = s_scan o (strings ks) (s_vis s) a0 q0).
      { destruct Hl as [->|(x & -> & Hx)]; [reflexivity|]. symmetry. apply s_scan_skip. exact Hx. }
      rewrite Er. clear Er. pose proof (scan_same o ks idx (tbl i) (s_vis s) a0 q0 Hs Hst I) as X.
      pose proof (scan_suffix o ks (tbl i) a0 q0) as Sf.
      destruct (scan _ _ _ _ _) as [s0 ks' t' a' q'|ks' t' a' q'|w q'];
        destruct (s_scan _ _ _ _ _) as [s1 rem' vis' a2 q2|vis' a2 q2|w2 q2]; try contradiction.
      - destruct X as (-> & -> & -> & Lo & Sl' & Len' & idx' & S' & I').
        split; [reflexivity|]. split; [reflexivity|]. split; [discriminate|]. intros n En.
        split; [reflexivity|]. split; [|split; [lia|intros x Hx; apply Inc, Sf, Hx]].
        split; [reflexivity|]. split; [reflexivity|]. exists idx'. split; [exact I'|]. cbn [visited keys s_rem s_vis]. auto.
      - destruct X as (-> & -> & Len' & idx' & S' & I').
        destruct a2 as [|[?|?|p|] a2]; try (repeat split; congruence).
        specialize (IH (mkI p false ks' t') (mkS p false [] vis') a2 (q2 ++ [QProto o])).
        assert (Inc2 : incl a2 a) by (intros x Hx; apply Inc, Sf; cbn; auto).
        destruct (next _ _ _ _) as [[[o1 i'] a'] q'']. destruct (s_next _ _ _ _) as [[[o2 s'] a3] q3].
        cbn [length] in Len'.
        destruct IH as (E1 & E2 & E3 & E4).
        + split; [reflexivity|]. split; [reflexivity|]. exists idx'. cbn. split; [exact I'|exact S'].
        + intros ks0 H0. apply Sl, Inc2, H0.
        + lia.
        + split; [exact E1|]. split; [exact E2|]. split; [exact E3|]. intros n En.
          destruct (E4 n En) as (A & B & C & D). split; [exact A|]. split; [exact B|]. split; [lia|].
          intros x Hx. apply Inc2, D, Hx.
      - destruct X as (-> & ->). split; [reflexivity|]. split; [reflexivity|].
        destruct Sf as [->| ->]; (split; [discriminate|]); discriminate. }
    rewrite <- Hw. destruct (visited i).
    - destruct K as (K1 & K2 & K3). apply Go; auto. apply incl_refl.
    - destruct a as [|[ks|?|?|] a]; try (repeat split; congruence).
      apply Go; cbn [length]; auto.
      + apply Sl. cbn; auto.
      + left. reflexivity.
      + intros x Hx. cbn; auto.
  Qed.
End Form.
