From Coq Require Import ZArith List Bool Arith Lia.
Import ListNotations.
From Verif Require Import RegModel RegSpec RegBase RegProofs RegTerm RegText RegExecModel RegExecSpec.
Local Open Scope nat_scope.

Lemma run_more : forall E f s o, run E f s = Some o -> forall f', f <= f' -> run E f' s = Some o.
Proof.
  intros E. induction f as [|f IH]; intros s o H f' L; [discriminate|].
  destruct f' as [|f']; [lia|]. cbn [run] in *. destruct (step E s); auto. apply IH; auto. lia.
Qed.

Section exec.
  Variable E : env.
  Hypothesis Hu : Forall code_unit (str E).
  Notation W := (code_world E).
  Notation n := (text_len E).

  Lemma get_char_nat : forall p, get_char E (Z.of_nat p) = if length (str E) <=? p then (-1)%Z else unit_at E p.
  Proof.
    intros p. unfold get_char, unit_at. destruct (Z.ltb_spec (Z.of_nat p) 0); [lia|].
    destruct (Z.leb_spec (Z.of_nat (length (str E))) (Z.of_nat p)); destruct (Nat.leb_spec (length (str E)) p); try lia; auto.
    rewrite Nat2Z.id. reflexivity.
  Qed.
  Lemma adv_place : forall i, i < n -> adv_index E (place E i) = place E (S i).
  Proof.
    intros i H. pose proof (place_S E i H) as Q. pose proof (char_here E Hu i H) as C.
    unfold adv_index. destruct (fl_u E) eqn:U; cbn [negb]; [|lia].
    replace (Z.of_nat (place E i) + 1)%Z with (Z.of_nat (S (place E i))) by lia.
    rewrite !get_char_nat. unfold unit_at.
    destruct C as [L C]. rewrite Q.
    destruct (Nat.leb_spec (length (str E)) (place E i)) as [K|_]; [lia|].
    assert (R : (nth (place E i) (str E) 0 =? -1)%Z = false).
    { apply Z.eqb_neq. rewrite Forall_forall in Hu. specialize (Hu _ (nth_In _ 0%Z L)). unfold code_unit in Hu. lia. }
    rewrite R. change is_lead with lead. change is_trail with trail.
    destruct C as [(A & B & D)|(A & B & D & F & G)]; rewrite A.
    - destruct (lead (nth (place E i) (str E) 0%Z)) eqn:Ld; cbn [negb]; auto.
      destruct (Nat.leb_spec (length (str E)) (S (place E i))); [reflexivity|].
      destruct (trail (nth (S (place E i)) (str E) 0%Z)) eqn:Tr; auto. exfalso. apply D. auto.
    - rewrite D. cbn [negb]. destruct (Nat.leb_spec (length (str E)) (S (place E i))); [lia|]. rewrite F. reflexivity.
  Qed.
  Lemma adv_end : adv_index E (place E n) = S (length (str E)).
  Proof.
    rewrite (place_last E Hu). unfold adv_index. destruct (fl_u E); cbn [negb]; [|lia].
    rewrite get_char_nat, Nat.leb_refl. cbn. lia.
  Qed.
  Lemma place_le : forall i, i <= n -> place E i <= length (str E).
  Proof.
    intros i H. rewrite <- (place_last E Hu). destruct (Nat.eq_dec i n) as [->|N]; auto.
    pose proof (place_mono E i n). lia.
  Qed.

  Section pat.
    Variable p : pattern.
    Hypothesis Wn : well_numbered p (group_num E).
    Hypothesis Fl : one_unit E \/ forallb (forallb no_back_t) p = true.
    Notation M := (m_match W true p).
    Definition told (y : state) (j : nat) (v : list Z) : Prop :=
      length v = 2 * group_num E /\ e y <= n /\
      vget v 0 = Z.of_nat (place E j) /\ vget v 1 = Z.of_nat (place E (e y)) /\
      length (cs y) = group_num E /\
      (forall k, 1 <= k < group_num E -> vcap v k = offs E (cap (cs y) k)) /\
      (forall k a b, cap (cs y) k = Some (a, b) -> a <= b /\ b <= n).
    Lemma search_ok : forall sticky d i m, d = n - i -> i <= n -> exists F, forall fuel tries, F <= fuel -> d + 2 <= tries ->
      (exists j y v, leftmost M sticky n i j y /\ told y j v /\
         search E p sticky tries fuel (place E i) m = Some (Some (place E j, v))) \/
      (nowhere M sticky n i /\ search E p sticky tries fuel (place E i) m = Some None).
    Proof.
      intros sticky. induction d as [|d IH]; intros i m D Hi.
      - assert (i = n) by lia. subst i.
        pose proof (machine_ok E Hu p n m Wn Fl (le_n _)) as K.
        destruct (M n) as [|y|] eqn:Q; [| |contradiction].
        + destruct K as (f & v & m' & R). exists f. intros fuel tries F T.
          destruct tries as [|[|t]]; [lia..|]. right. split.
          * intros k Hk _. replace k with n by lia. auto.
          * cbn [search]. rewrite (run_more _ _ _ _ R) by auto.
            destruct (Nat.ltb_spec (length (str E)) (place E n)); auto.
            destruct sticky; auto. rewrite adv_end.
            destruct (Nat.ltb_spec (length (str E)) (S (length (str E)))); auto. lia.
        + destruct K as (f & v & m' & R & K). exists f. intros fuel tries F T.
          destruct tries as [|t]; [lia|]. left. exists n, y, v. split; [|split].
          * split; [lia|]. split; auto. split; auto. intros k Hk. lia.
          * exact K.
          * cbn [search]. rewrite (run_more _ _ _ _ R) by auto.
            destruct (Nat.ltb_spec (length (str E)) (place E n)) as [L|L]; auto.
            rewrite (place_last E Hu) in L. lia.
      - pose proof (machine_ok E Hu p i m Wn Fl Hi) as K.
        pose proof (place_le i Hi) as Pl.
        destruct (M i) as [|y|] eqn:Q; [| |contradiction].
        + destruct K as (f & v & m' & R). destruct (IH (S i) m') as (F' & IH'); [lia..|].
          exists (f + F'). intros fuel tries F T. destruct tries as [|t]; [lia|].
          cbn [search]. rewrite (run_more _ _ _ _ R) by lia.
          destruct (Nat.ltb_spec (length (str E)) (place E i)) as [L|L]; [lia|].
          destruct sticky.
          * right. split; auto. intros k Hk Sk. rewrite (Sk eq_refl). auto.
          * rewrite adv_place by lia.
            destruct (IH' fuel t) as [(j & y & w & Lm & Td & Se)|(Nw & Se)]; [lia..| |].
            -- left. exists j, y, w. split; auto. destruct Lm as (A & B & C & G). split; [lia|]. split; auto. split; [discriminate|].
               intros k Hk. destruct (Nat.eq_dec k i) as [->|N]; auto. apply G. lia.
            -- right. split; auto. intros k Hk _. destruct (Nat.eq_dec k i) as [->|N]; auto. apply Nw; [lia|discriminate].
        + destruct K as (f & v & m' & R & K). exists f. intros fuel tries F T.
          destruct tries as [|t]; [lia|]. left. exists i, y, v. split; [|split].
          * split; [lia|]. split; auto. split; auto. intros k Hk. lia.
          * exact K.
          * cbn [search]. rewrite (run_more _ _ _ _ R) by auto.
            destruct (Nat.ltb_spec (length (str E)) (place E i)) as [L|L]; auto. lia.
    Qed.
    Lemma search_past : forall sticky fuel tries idx m, 1 <= tries -> length (str E) < idx ->
      search E p sticky tries fuel idx m = Some None.
    Proof.
      intros sticky fuel [|t] idx m T L; [lia|]. cbn [search].
      destruct (Nat.ltb_spec (length (str E)) idx); auto. lia.
    Qed.
  End pat.

  (** ** the result *)
  Lemma place_leq : forall i j, i <= j -> j <= n -> place E i <= place E j.
  Proof.
    intros i j A B. destruct (Nat.eq_dec i j) as [->|N]; auto. pose proof (place_mono E i j). lia.
  Qed.
  Lemma span_vcap : forall v i, group_span v i = vcap v i.
  Proof.
    intros v i. unfold group_span, vcap. set (s := vget v (2 * i)). set (t := vget v (2 * i + 1)).
    destruct (Z.ltb_spec t s).
    - rewrite orb_comm. destruct (_ || _)%bool; auto. repeat f_equal; lia.
    - destruct (_ || _)%bool; auto. repeat f_equal; lia.
  Qed.
  Lemma span_told : forall y j v k, told y j v -> 1 <= k < group_num E -> group_span v k = offs E (cap (cs y) k).
  Proof. intros y j v k (_ & _ & _ & _ & _ & H & _) Hk. rewrite span_vcap. auto. Qed.
  Lemma put_length : forall {A} (l : list A) i x, length (put l i x) = length l.
  Proof. induction l as [|a l IH]; intros [|i] x; cbn; auto. Qed.
  Lemma put_nth : forall {A} (l : list A) i j x d, nth j (put l i x) d = if (j =? i) && (i <? length l) then x else nth j l d.
  Proof.
    induction l as [|a l IH]; intros i j x d.
    - cbn. rewrite andb_false_r. destruct i, j; reflexivity.
    - destruct i as [|i], j as [|j]; cbn [put nth length]; auto. rewrite IH. reflexivity.
  Qed.
  (** the items of the names after the groups of a list *)
  Hypothesis NN : forall k, ~ (nth k (group_names E) (-1) < -1)%Z.
  Lemma named_fold : forall {A} (f : Z * Z -> A) v ks l,
    let r := fold_left (fun l i =>
      match group_span v i with
      | None => l
      | Some r =>
          let gn := nth i (group_names E) (-1)%Z in
          if (gn =? -1)%Z then l else put l (Z.to_nat gn) (Some (f r))
      end) ks l in
    length r = length l /\
    forall nid, (0 <= nid)%Z -> Z.to_nat nid < length l ->
      (nth (Z.to_nat nid) r None = nth (Z.to_nat nid) l None /\
         (forall k, In k ks -> nth k (group_names E) (-1)%Z = nid -> group_span v k = None)) \/
      (exists k sp, In k ks /\ nth k (group_names E) (-1)%Z = nid /\ group_span v k = Some sp /\
         nth (Z.to_nat nid) r None = Some (f sp)).
  Proof.
    intros A f v. induction ks as [|k ks IH]; intros l; cbn [fold_left].
    - split; auto. intros nid P Q. left. split; auto. intros k [].
    - set (l1 := match group_span v k with Some _ => _ | None => _ end).
      destruct (IH l1) as [L H].
      assert (L1 : length l1 = length l).
      { unfold l1. destruct (group_span v k); auto. destruct (_ =? _)%Z; auto. apply put_length. }
      rewrite L1 in *. split; auto. intros nid P Q.
      destruct (H nid P Q) as [[H1 H2]|(k' & sp & I & Nm & Sp & H1)].
      2:{ right. exists k', sp. split; [right; auto|]. auto. }
      destruct (group_span v k) as [sp|] eqn:Sp.
      2:{ left. split; auto. intros k' [<-|I] Nm; auto. }
      destruct (Z.eq_dec (nth k (group_names E) (-1)%Z) nid) as [Eq|Ne].
      + right. exists k, sp. split; [left; auto|]. split; auto. split; auto.
        etransitivity; [exact H1|]. unfold l1. rewrite ?Sp, Eq. destruct (Z.eqb_spec nid (-1)); [lia|].
        rewrite put_nth, Nat.eqb_refl. destruct (Nat.ltb_spec (Z.to_nat nid) (length l)); [reflexivity|lia].
      + left. split.
        * etransitivity; [exact H1|]. unfold l1. rewrite ?Sp. destruct (Z.eqb_spec (nth k (group_names E) (-1)%Z) (-1)); auto.
          rewrite put_nth.
          destruct (Z_lt_le_dec (nth k (group_names E) (-1)%Z) 0) as [Neg|Pos].
          -- exfalso. apply (NN k). lia.
          -- destruct (Nat.eqb_spec (Z.to_nat nid) (Z.to_nat (nth k (group_names E) (-1)%Z))); [lia|reflexivity].
        * intros k' [<-|I] Nm; [contradiction|]. auto.
  Qed.
  Lemma substr_slice : forall a b, a <= b -> substr (str E) (Z.of_nat a) (Z.of_nat b) = slice (str E) a b.
  Proof.
    intros a b H. unfold substr, slice. rewrite Nat2Z.id. replace (Z.to_nat (Z.of_nat b - Z.of_nat a)) with (b - a) by lia.
    reflexivity.
  Qed.

  Definition piece (r : nat * nat) : list Z := slice (str E) (place E (fst r)) (place E (snd r)).
  Definition zspan (r : nat * nat) : Z * Z := (Z.of_nat (place E (fst r)), Z.of_nat (place E (snd r))).
  (** the value of each name: undefined if no group of the name took part, that of the
      group if one did *)
  Definition names_ok {A} (f : nat * nat -> A) (nn : nat) (y : state) (o : option (list (option A))) : Prop :=
    if nn =? 0 then o = None
    else exists l, o = Some l /\ length l = nn /\ forall nid, (0 <= nid < Z.of_nat nn)%Z ->
      ((forall k r, ~ took_part (group_names E) (cs y) nid k r) -> nth (Z.to_nat nid) l None = None) /\
      (forall k r, took_part (group_names E) (cs y) nid k r ->
         (forall k' r', took_part (group_names E) (cs y) nid k' r' -> k' = k) ->
         nth (Z.to_nat nid) l None = Some (f r)).
  Definition answer_ok (nn : nat) (d : bool) (j : nat) (y : state) (a : answer) : Prop :=
    a_index a = place E j /\
    length (a_elems a) = group_num E /\
    nth 0 (a_elems a) Hole = Text (piece (j, e y)) /\
    (forall k, 1 <= k < group_num E -> nth k (a_elems a) Hole =
       match cap (cs y) k with Some r => Text (piece r) | None => Hole end) /\
    names_ok piece nn y (a_groups a) /\
    (if d then exists l o, a_indices a = Some (l, o) /\ length l = group_num E /\
       nth 0 l None = Some (zspan (j, e y)) /\
       (forall k, 1 <= k < group_num E -> nth k l None = option_map zspan (cap (cs y) k)) /\
       names_ok zspan nn y o
     else a_indices a = None).

  Lemma map_seq_nth : forall {A} (f : nat -> A) c k d, 1 <= k <= c -> nth (k - 1) (map f (seq 1 c)) d = f k.
  Proof.
    intros A f c k d H. rewrite nth_indep with (d' := f 0) by (rewrite map_length, seq_length; lia).
    rewrite map_nth, seq_nth by lia. f_equal. lia.
  Qed.
  Lemma told_names : forall {A} (f : Z * Z -> A) (h : nat * nat -> A) nn j y v, told y j v ->
    (forall r, fst r <= snd r -> snd r <= n -> f (zspan r) = h r) ->
    names_ok h nn y (if nn =? 0 then None else Some (named E nn v f)).
  Proof.
    intros A f h nn j y v T Q. unfold names_ok. destruct (nn =? 0); auto.
    destruct (named_fold f v (seq 1 (group_num E - 1)) (repeat None nn)) as [L H].
    exists (named E nn v f). split; auto. split; [etransitivity; [exact L|apply repeat_length]|].
    intros nid B. rewrite repeat_length in H.
    assert (Lc : length (cs y) = group_num E) by (destruct T as (_ & _ & _ & _ & K & _); auto).
    assert (In1 : forall k r, took_part (group_names E) (cs y) nid k r -> In k (seq 1 (group_num E - 1)) /\ group_span v k = Some (zspan r)).
    { intros k r (K1 & K2 & K3).
      assert (k < group_num E).
      { destruct (Nat.lt_ge_cases k (group_num E)); auto. unfold cap in K3. rewrite nth_overflow in K3 by lia. discriminate. }
      split; [apply in_seq; lia|]. rewrite (span_told y j v k T) by lia. rewrite K3. destruct r. reflexivity. }
    destruct (H nid) as [[H1 H2]|(k & sp & I & Nm & Sp & H1)]; [lia..| |].
    - change (nth (Z.to_nat nid) (named E nn v f) None = nth (Z.to_nat nid) (repeat None nn) None) in H1.
      rewrite H1, nth_repeat. split; auto. intros k r Tp _. destruct (In1 k r Tp) as [I Sp].
      rewrite (H2 k I) in Sp; [discriminate|]. destruct Tp as (_ & K & _). auto.
    - change (nth (Z.to_nat nid) (named E nn v f) None = Some (f sp)) in H1. rewrite H1.
      apply in_seq in I. rewrite (span_told y j v k T) in Sp by lia.
      destruct (cap (cs y) k) as [[a b]|] eqn:Cp; [|discriminate]. cbn [offs] in Sp.
      assert (Tp : took_part (group_names E) (cs y) nid k (a, b)) by (split; [lia|auto]).
      split.
      + intros N. exfalso. apply (N k (a, b)). auto.
      + intros k' r Tp' U. specialize (U k (a, b) Tp). subst k'.
        destruct Tp' as (_ & _ & Cp'). rewrite Cp in Cp'. injection Cp' as <-.
        injection Sp as <-. f_equal. apply (Q (a, b)); destruct T as (_ & _ & _ & _ & _ & _ & Bd); destruct (Bd k a b Cp); auto.
  Qed.
  Lemma build_ok : forall nn d j y v, 1 <= group_num E -> j <= e y -> told y j v -> answer_ok nn d j y (build E nn d (place E j) v).
  Proof.
    intros nn d j y v G J T. pose proof T as (T1 & T2 & T3 & T4 & T5 & T6 & T7).
    assert (Pc : forall r, fst r <= snd r -> snd r <= n ->
      substr (str E) (fst (zspan r)) (snd (zspan r)) = piece r).
    { intros [a b] A B. cbn [zspan fst snd]. apply substr_slice. apply place_leq; auto. }
    assert (Sp : forall k, 1 <= k < group_num E -> group_span v k = option_map zspan (cap (cs y) k)).
    { intros k Hk. rewrite (span_told y j v k T Hk). destruct (cap (cs y) k) as [[a b]|]; reflexivity. }
    assert (Lm : forall {B} (f : nat -> B), length (map f (seq 1 (group_num E - 1))) = group_num E - 1).
    { intros. rewrite map_length, seq_length. reflexivity. }
    unfold answer_ok, build. cbn [a_index a_elems a_groups a_indices].
    split; auto. split; [cbn [length]; rewrite map_map, Lm; lia|]. split; [|split; [|split]].
    - cbn [nth]. rewrite T3, T4. f_equal. apply (Pc (j, e y)); auto.
    - intros k Hk. destruct k as [|k]; [lia|]. cbn [nth]. replace k with (S k - 1) by lia.
      rewrite map_map, map_seq_nth by lia. rewrite Sp by lia. replace (S (S k - 1)) with (S k) by lia.
      destruct (cap (cs y) (S k)) as [r|] eqn:Cp; cbn [option_map]; auto. f_equal. destruct r as [a b].
      destruct (T7 (S k) a b Cp). apply (Pc (a, b)); auto.
    - eapply told_names; eauto.
    - destruct d; auto. eexists. eexists. split; [reflexivity|]. split; [cbn [length]; rewrite Lm; lia|]. split; [|split].
      + cbn [nth]. rewrite T3, T4. reflexivity.
      + intros k Hk. destruct k as [|k]; [lia|]. cbn [nth]. replace k with (S k - 1) by lia.
        rewrite map_seq_nth by lia. replace (S (S k - 1)) with (S k) by lia. apply Sp. lia.
      + eapply told_names; eauto.
  Qed.

  Theorem exec_ok : forall p nn g y d i last, well_numbered p (group_num E) ->
    (one_unit E \/ forallb (forallb no_back_t) p = true) -> 1 <= group_num E ->
    i <= n -> (if g || y then last = place E i else i = 0) ->
    exists F, forall fuel tries, F <= fuel -> n + 2 <= tries ->
      (exists j z a, leftmost (m_match W true p) y n i j z /\ answer_ok nn d j z a /\
         builtin_exec E p nn g y d tries fuel last =
           Some (Some a, if g || y then Some (Z.of_nat (place E (e z))) else None)) \/
      (nowhere (m_match W true p) y n i /\
         builtin_exec E p nn g y d tries fuel last = Some (None, if g || y then Some 0%Z else None)).
  Proof.
    intros p nn g y d i last Wn Fl G Hi Hl.
    destruct (search_ok p Wn Fl y (n - i) i [] eq_refl Hi) as (F & H).
    exists F. intros fuel tries Hf Ht. unfold builtin_exec.
    assert (Q : (if g || y then last else 0) = place E i).
    { destruct (g || y); auto. subst i. symmetry. apply place_0. }
    rewrite Q. destruct (H fuel tries Hf) as [(j & z & v & Lm & T & Se)|(Nw & Se)]; [lia| |].
    - left. exists j, z, (build E nn d (place E j) v). rewrite Se. split; auto. split.
      + apply build_ok; auto. destruct Lm as ([_ Hj] & Fd & _). pose proof (match_ahead W true p j z Hj Fd). lia.
      + destruct T as (_ & _ & _ & T & _). rewrite T. reflexivity.
    - right. split; auto. rewrite Se. reflexivity.
  Qed.
  Theorem exec_past : forall p nn g y d last fuel tries, g || y = true -> length (str E) < last -> 1 <= tries ->
    builtin_exec E p nn g y d tries fuel last = Some (None, Some 0%Z).
  Proof.
    intros p nn g y d last fuel tries A B C. unfold builtin_exec. rewrite A, search_past by auto. reflexivity.
  Qed.
End exec.
