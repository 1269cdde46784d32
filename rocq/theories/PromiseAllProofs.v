(** Proofs about Promise.all, Promise.allSettled and Promise.any. *)
From Coq Require Import List ZArith Bool Arith Lia.
Import ListNotations.
From Verif Require Import PromiseModel PromiseAllModel PromiseAllSpec PromiseProofs.

Definition unc (b : bool * bool) : bool := negb (fst b || snd b).

Definition flags (t : tag) : bool * bool :=
  match t with Ful => (true, false) | Rej => (false, true) end.

Definition out_of (k : kind) (l : list entry) : output :=
  match k with Any => OReject l | _ => OResolve l end.

Definition valid (k : kind) (t : tag) : bool :=
  match k, t with All, Rej => false | Any, Ful => false | _, _ => true end.

Definition is_ended (p : phase) : bool := match p with Ended => true | _ => false end.

Record CInv (k : kind) (c : comb) (l : list act) : Prop := {
  c_elems : elems l = length (singles c);
  c_slots : length (values c) = length (singles c) \/
            (length (values c) = S (length (singles c)) /\ ph c <> Ended);
  c_ended : ended l = is_ended (ph c);
  c_first : forall i,
    match first i l with
    | Some (t, x) => nth_error (singles c) i = Some (flags t) /\
                     nth_error (values c) i = Some (entry_of k (t, x))
    | None => nth_error (singles c) i = None \/ nth_error (singles c) i = Some (false, false)
    end;
  c_valid : forall i t x, first i l = Some (t, x) -> valid k t = true;
  c_left : left c = (Z.of_nat (if is_ended (ph c) then 0 else 1) +
                     Z.of_nat (cnt unc (singles c)))%Z;
  c_outs : outs c = if is_ended (ph c) && (cnt unc (singles c) =? 0)
                    then [out_of k (values c)] else [] }.

Lemma elems_app : forall l m, elems (l ++ m) = elems l + elems m.
Proof. induction l as [|[] l IH]; intros; cbn; rewrite ?IH; reflexivity. Qed.

Lemma first_app : forall i l m,
  first i (l ++ m) = match first i l with Some c => Some c | None => first i m end.
Proof.
  induction l as [|a l IH]; intros; [reflexivity|].
  cbn [app]. destruct a; cbn [first]; rewrite ?IH; try reflexivity.
  destruct (i0 =? i); reflexivity.
Qed.

Lemma ended_app : forall l m, ended (l ++ m) = ended l || ended m.
Proof. intros. apply existsb_app. Qed.

Lemma cnt_len : forall A (f : A -> bool) l, cnt f l <= length l.
Proof.
  induction l as [|x l IH]; [reflexivity|]. rewrite cnt_cons. cbn [length].
  destruct (f x); lia.
Qed.

Lemma cinv_start : forall k, CInv k start [].
Proof.
  intro k. split; cbn; auto.
  - intro i. left. destruct i; reflexivity.
  - discriminate.
Qed.

Lemma size_small : forall z, (0 <= z < 2 ^ 64)%Z -> size_t z = z.
Proof. intros. unfold size_t. now apply Z.mod_small. Qed.

Lemma upd_len : forall A (l : list A) i x, length (upd l i x) = length l.
Proof. induction l as [|y l IH]; intros [|i] x; cbn; auto. Qed.

(** A first call of a function of an element. *)
Lemma cinv_call : forall k c l i t x n,
  CInv k c l -> (Z.of_nat (elems l) < 2 ^ 64 - 1)%Z ->
  nth_error (singles c) i = Some (false, false) -> valid k t = true ->
  n = Comb (size_t (left c - 1)) (upd (values c) i (entry_of k (t, x)))
           (upd (singles c) i (flags t)) (ph c) (outs c) ->
  CInv k (if (left n =? 0)%Z then output_call n (out_of k (values n)) else n)
       (l ++ [ACall i t x]).
Proof.
  intros k c l i t x n [E S0 En F V L O] B N Vt ->.
  assert (Fi : first i l = None).
  { specialize (F i). destruct (first i l) as [[t' x']|]; [|reflexivity].
    destruct F as [F _]. rewrite N in F. destruct t'; discriminate. }
  assert (Ni : exists e, nth_error (values c) i = Some e).
  { assert (i < length (singles c)) by (apply nth_error_Some; congruence).
    destruct (nth_error (values c) i) eqn:Q; [eauto|].
    apply nth_error_None in Q. destruct S0 as [S0|[S0 _]]; lia. }
  destruct Ni as [e0 Ni].
  pose proof (cnt_upd _ unc _ i (flags t) _ N) as U. cbn [unc fst snd orb negb] in U.
  replace (unc (flags t)) with false in U by (destruct t; reflexivity).
  change (if unc (false, false) then 1 else 0) with 1 in U.
  set (m := Comb _ _ _ _ _).
  assert (Lm : left m = (Z.of_nat (if is_ended (ph c) then 0 else 1) +
                         Z.of_nat (cnt unc (singles m)))%Z).
  { unfold m; cbn [left singles]. pose proof (cnt_len _ unc (singles c)).
    rewrite L, size_small by (destruct (is_ended (ph c)); lia). lia. }
  assert (Base : forall o,
    o = (if is_ended (ph c) && (cnt unc (singles m) =? 0) then [out_of k (values m)] else []) ->
    CInv k (Comb (left m) (values m) (singles m) (ph m) o) (l ++ [ACall i t x])).
  { intros o Ho. split; cbn [left values singles ph outs].
    - rewrite elems_app. cbn. unfold m; cbn [singles]. rewrite upd_len. lia.
    - unfold m; cbn [values singles ph]. rewrite !upd_len. exact S0.
    - rewrite ended_app, En. cbn. apply orb_false_r.
    - intro j. rewrite first_app. cbn [first]. specialize (F j).
      destruct (Nat.eqb_spec i j) as [<-|D].
      + rewrite Fi. unfold m; cbn [values singles]. split; eapply nth_upd_same; eauto.
      + unfold m; cbn [values singles]. rewrite !nth_upd_other by assumption.
        destruct (first j l) as [[t' x']|]; exact F.
    - intros j t' x' H. rewrite first_app in H.
      destruct (first j l) as [[t2 x2]|] eqn:Q.
      + injection H as <- <-. eauto.
      + cbn [first] in H. destruct (i =? j); [|discriminate]. injection H as <- <-. exact Vt.
    - exact Lm.
    - exact Ho. }
  assert (O0 : outs c = []).
  { rewrite O. replace (cnt unc (singles c) =? 0) with false by (symmetry; apply Nat.eqb_neq; lia).
    now rewrite andb_false_r. }
  destruct (Z.eqb_spec (left m) 0) as [Z0|Z0].
  - apply (Base (outs m ++ [out_of k (values m)])).
    unfold m at 1; cbn [outs]. rewrite O0. cbn [app].
    rewrite Lm in Z0. destruct (is_ended (ph c)); [|lia].
    replace (cnt unc (singles m) =? 0) with true by (symmetry; apply Nat.eqb_eq; lia).
    reflexivity.
  - replace m with (Comb (left m) (values m) (singles m) (ph m) (outs m)) by reflexivity.
    apply Base. unfold m at 1; cbn [outs]. rewrite O0.
    rewrite Lm in Z0. destruct (is_ended (ph c)); [|reflexivity].
    replace (cnt unc (singles m) =? 0) with false by (symmetry; apply Nat.eqb_neq; lia).
    reflexivity.
Qed.

(** A repeated call. *)
Lemma cinv_again : forall k c l i t x, CInv k c l -> first i l <> None ->
  CInv k c (l ++ [ACall i t x]).
Proof.
  intros k c l i t x [E S0 En F V L O] Fi. split; try assumption.
  - rewrite elems_app. cbn. lia.
  - rewrite ended_app, En. cbn. apply orb_false_r.
  - intro j. rewrite first_app. cbn [first]. specialize (F j).
    destruct (first j l) as [[t' x']|] eqn:Q; [exact F|].
    destruct (Nat.eqb_spec i j) as [->|]; [congruence|exact F].
  - intros j t' x' H. rewrite first_app in H.
    destruct (first j l) as [[t2 x2]|] eqn:Q.
    + injection H as <- <-. eauto.
    + cbn [first] in H. destruct (Nat.eqb_spec i j) as [->|]; [congruence|discriminate].
Qed.

Lemma first_in : forall i l t x, first i l = Some (t, x) -> In (ACall i t x) l.
Proof.
  induction l as [|a l IH]; intros t x Q; [discriminate|].
  destruct a; cbn [first] in Q; cbn [In]; auto.
  destruct (Nat.eqb_spec i0 i) as [->|]; [|auto]. left. congruence.
Qed.

Lemma cinv_valid_snoc : forall k l a, (forall i t x, first i l = Some (t, x) -> valid k t = true) ->
  (forall i t x, a <> ACall i t x) ->
  forall i t x, first i (l ++ [a]) = Some (t, x) -> valid k t = true.
Proof.
  intros k l a V A i t x H. rewrite first_app in H.
  destruct (first i l) as [[t2 x2]|] eqn:Q; [injection H as <- <-; eauto|].
  destruct a; cbn [first] in H; try discriminate. exfalso. eapply A; eauto.
Qed.

Lemma cinv_step : forall k c l a c', CInv k c l ->
  (Z.of_nat (elems (l ++ [a])) < 2 ^ 64 - 1)%Z ->
  (k = Settled -> one_sided (l ++ [a])) ->
  cstep k c a = Some c' -> CInv k c' (l ++ [a]).
Proof.
  intros k c l a c' I0 B Os E. rewrite elems_app in B. destruct a; cbn [cstep] in E.
  - destruct (ph c) eqn:P; try discriminate.
    destruct (Nat.eqb_spec (length (values c)) (length (singles c))) as [Q|]; [|discriminate].
    injection E as <-. destruct I0 as [E S0 En F V L O]. rewrite P in *.
    split; cbn [loop_slot left values singles ph outs].
    + rewrite elems_app. cbn. lia.
    + right. rewrite app_length, P. cbn. split; [lia|discriminate].
    + rewrite ended_app, En, P. reflexivity.
    + intro i. rewrite first_app. cbn [first]. specialize (F i).
      destruct (first i l) as [[t x]|]; [|exact F]. destruct F as [F1 F2]. split; [exact F1|].
      rewrite nth_error_app1; [exact F2|]. apply nth_error_Some. congruence.
    + apply cinv_valid_snoc; [assumption|congruence].
    + now rewrite P.
    + now rewrite P.
  - destruct (ph c) eqn:P; try discriminate.
    destruct (Nat.eqb_spec (length (values c)) (S (length (singles c)))) as [Q|]; [|discriminate].
    injection E as <-. destruct I0 as [E S0 En F V L O]. rewrite P in *. cbn in B.
    pose proof (cnt_len _ unc (singles c)).
    split; cbn [loop_elem inc_left left values singles ph outs].
    + rewrite elems_app, app_length. cbn. lia.
    + left. rewrite app_length. cbn. lia.
    + rewrite ended_app, En, P. reflexivity.
    + intro i. rewrite first_app. cbn [first]. specialize (F i).
      destruct (first i l) as [[t x]|].
      * destruct F as [F1 F2]. split; [|exact F2].
        rewrite nth_error_app1; [exact F1|]. apply nth_error_Some. congruence.
      * rewrite nth_snoc. destruct (i =? length (singles c)); auto.
    + apply cinv_valid_snoc; [assumption|congruence].
    + rewrite P, cnt_app, cnt_cons, cnt_nil. cbn [is_ended] in *.
      change (if unc (false, false) then 1 else 0) with 1.
      rewrite L, size_small by lia. lia.
    + rewrite P. cbn [is_ended andb] in *. exact O.
  - destruct (nth_error (singles c) i) as [s|] eqn:N; [|discriminate]. cbn in B.
    pose proof (c_first _ _ _ I0 i) as Fi. rewrite N in Fi.
    destruct (first i l) as [[t' x']|] eqn:Q.
    + destruct Fi as [Fi Fv]. injection Fi as ->.
      assert (Same : t' = t -> CInv k c' (l ++ [ACall i t x])).
      { intros <-.
        assert (c' = c).
        { destruct k, t'; cbn in E; try discriminate; injection E as <-; reflexivity. }
        subst c'. apply cinv_again; [assumption|congruence]. }
      pose proof (c_valid _ _ _ I0 _ _ _ Q) as Vt.
      destruct t', t; try (apply Same; reflexivity); exfalso;
        destruct k; try discriminate.
      * apply (Os eq_refl i x' x); apply in_or_app;
          [left; now apply first_in|right; left; reflexivity].
      * apply (Os eq_refl i x x'); apply in_or_app;
          [right; left; reflexivity|left; now apply first_in].
    + destruct Fi as [Fi|Fi]; [discriminate|]. injection Fi as ->.
      assert (B' : (Z.of_nat (elems l) < 2 ^ 64 - 1)%Z) by lia.
      pose proof (fun Vt => cinv_call k c l i t x _ I0 B' N Vt eq_refl) as G.
      destruct k, t; try discriminate; injection E as <-; exact (G eq_refl).
  - destruct (ph c) eqn:P; try discriminate.
    destruct (Nat.eqb_spec (length (values c)) (length (singles c))) as [Q|]; [|discriminate].
    injection E as <-. destruct I0 as [E S0 En F V L O]. rewrite P in *. cbn in B.
    cbn [is_ended andb] in *.
    pose proof (cnt_len _ unc (singles c)).
    assert (Lm : size_t (left c - 1) = Z.of_nat (cnt unc (singles c)))
      by (rewrite L, size_small by lia; lia).
    assert (Base : forall o,
      o = (if cnt unc (singles c) =? 0 then [out_of k (values c)] else []) ->
      CInv k (Comb (size_t (left c - 1)) (values c) (singles c) Ended o) (l ++ [AEnd])).
    { intros o Ho. split; cbn [left values singles ph outs].
      - rewrite elems_app. cbn. lia.
      - left. assumption.
      - rewrite ended_app. apply orb_true_r.
      - intro i. rewrite first_app. cbn [first]. specialize (F i).
        destruct (first i l) as [[t x]|]; exact F.
      - apply cinv_valid_snoc; [assumption|congruence].
      - exact Lm.
      - exact Ho. }
    unfold loop_end. cbn [dec_left left values singles ph outs output_call].
    rewrite Lm. destruct (Z.eqb_spec (Z.of_nat (cnt unc (singles c))) 0) as [Z0|Z0].
    + apply Base. rewrite O. replace (cnt unc (singles c) =? 0) with true
        by (symmetry; apply Nat.eqb_eq; lia). destruct k; reflexivity.
    + apply Base. rewrite O. replace (cnt unc (singles c) =? 0) with false
        by (symmetry; apply Nat.eqb_neq; lia). reflexivity.
  - destruct (ph c) eqn:P; try discriminate. injection E as <-.
    destruct I0 as [E S0 En F V L O]. rewrite P in *.
    split; cbn [left values singles ph outs]; try assumption.
    + rewrite elems_app. cbn. lia.
    + destruct S0 as [S0|[S0 _]]; [left; assumption|right; split; [assumption|discriminate]].
    + rewrite ended_app, En. reflexivity.
    + intro i. rewrite first_app. cbn [first]. specialize (F i).
      destruct (first i l) as [[t x]|]; exact F.
    + apply cinv_valid_snoc; [assumption|congruence].
Qed.

Lemma one_sided_app : forall l m, one_sided (l ++ m) -> one_sided l.
Proof. intros l m O i x y A B. apply (O i x y); apply in_or_app; auto. Qed.

Lemma cinv_run : forall k l c past c', CInv k c past ->
  (Z.of_nat (elems (past ++ l)) < 2 ^ 64 - 1)%Z ->
  (k = Settled -> one_sided (past ++ l)) ->
  crun k c l = Some c' -> CInv k c' (past ++ l).
Proof.
  induction l as [|a l IH]; intros c past c' I0 B Os E; cbn [crun] in E.
  - injection E as <-. now rewrite app_nil_r.
  - destruct (cstep k c a) as [c1|] eqn:E1; [|discriminate].
    replace (past ++ a :: l) with ((past ++ [a]) ++ l) in * by (now rewrite <- app_assoc).
    apply (IH c1); try assumption.
    eapply cinv_step; eauto.
    + rewrite elems_app in B. lia.
    + intro K. eapply one_sided_app. apply Os. exact K.
Qed.

Lemma firstn_snoc : forall A (l : list A) m x, nth_error l m = Some x ->
  firstn (S m) l = firstn m l ++ [x].
Proof.
  induction l as [|y l IH]; intros [|m] x H; cbn in H; try discriminate.
  - injection H as ->. reflexivity.
  - cbn [firstn app]. f_equal. now apply IH.
Qed.

Lemma gathered_values : forall k c l, CInv k c l -> forall m, m <= length (singles c) ->
  gathered k l m = if cnt unc (firstn m (singles c)) =? 0
                   then Some (firstn m (values c)) else None.
Proof.
  intros k c l I0. induction m as [|m IH]; intros B; [reflexivity|].
  cbn [gathered]. rewrite IH by lia.
  pose proof (c_first _ _ _ I0 m) as F.
  destruct (nth_error (singles c) m) as [s|] eqn:N;
    [|apply nth_error_None in N; lia].
  rewrite (firstn_snoc _ _ _ _ N), cnt_app, cnt_cons, cnt_nil.
  destruct (first m l) as [[t x]|].
  - destruct F as [F1 F2]. injection F1 as ->.
    replace (unc (flags t)) with false by (destruct t; reflexivity).
    rewrite !Nat.add_0_r. rewrite (firstn_snoc _ _ _ _ F2).
    destruct (cnt unc (firstn m (singles c)) =? 0); reflexivity.
  - destruct F as [F|F]; [discriminate|]. injection F as ->.
    change (if unc (false, false) then 1 else 0) with 1.
    replace (cnt unc (firstn m (singles c)) + (1 + 0) =? 0) with false
      by (symmetry; apply Nat.eqb_neq; lia).
    destruct (cnt unc (firstn m (singles c)) =? 0); reflexivity.
Qed.

Lemma outputs_expected : forall k l c, crun k start l = Some c ->
  (Z.of_nat (elems l) < 2 ^ 64 - 1)%Z -> (k = Settled -> one_sided l) ->
  outs c = expected k l.
Proof.
  intros k l c R B Os.
  pose proof (cinv_run k l start [] c (cinv_start k) B Os R) as I0. cbn [app] in I0.
  rewrite (c_outs _ _ _ I0). unfold expected.
  rewrite (c_ended _ _ _ I0), (c_elems _ _ _ I0).
  rewrite (gathered_values _ _ _ I0) by lia. rewrite firstn_all.
  destruct (is_ended (ph c)) eqn:P; [|reflexivity]. cbn [andb].
  destruct (cnt unc (singles c) =? 0); [|reflexivity].
  pose proof (c_slots _ _ _ I0) as S0.
  assert (S1 : length (values c) = length (singles c)).
  { destruct S0 as [S0|[_ S0]]; [exact S0|]. destruct (ph c); cbn in P; congruence. }
  rewrite <- S1, firstn_all. destruct k; reflexivity.
Qed.
