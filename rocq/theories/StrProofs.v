(** Proofs about strings. *)
From Coq Require Import List ZArith Bool Lia Arith.
Import ListNotations.
From Verif Require Import StrModel StrSpec.
Local Open Scope Z_scope.

(** ** substr *)
Lemma substr_ok s a b : (a <= b)%nat -> (b <= length s)%nat ->
  substr s a b = SOk (firstn (b - a) (skipn a s)).
Proof.
  intros H1 H2. unfold substr.
  rewrite (proj2 (Nat.leb_le b (length s)) H2), (proj2 (Nat.leb_le a b) H1). reflexivity.
Qed.


Lemma skipn_skipn' {A} n m (l : list A) : skipn n (skipn m l) = skipn (m + n) l.
Proof.
  revert l. induction m; intros l; [reflexivity|]. destruct l; [rewrite !skipn_nil; reflexivity|].
  cbn [skipn Nat.add]. apply IHm.
Qed.

Lemma substr_split s a b r : substr s a b = SOk r ->
  (a <= b <= length s)%nat /\ s = firstn a s ++ r ++ skipn b s /\ length r = (b - a)%nat.
Proof.
  unfold substr. destruct (Nat.leb_spec b (length s)); [|discriminate].
  destruct (Nat.leb_spec a b); [|discriminate]. cbn [andb]. intros E. injection E as <-.
  split; [lia|]. split.
  - rewrite <- (firstn_skipn a s) at 1. f_equal. rewrite <- (firstn_skipn (b - a) (skipn a s)) at 1. f_equal.
    rewrite skipn_skipn'. f_equal. lia.
  - rewrite firstn_length, skipn_length. lia.
Qed.

Lemma skipn_S_nth {A} (l : list A) n x : nth_error l n = Some x -> skipn n l = x :: skipn (S n) l.
Proof.
  revert n. induction l as [|y l IH]; intros [|n] H; try discriminate.
  - injection H as ->. reflexivity.
  - cbn [skipn]. rewrite (IH n H). reflexivity.
Qed.

Lemma nth_error_lt {A} (l : list A) n : (n < length l)%nat -> exists x, nth_error l n = Some x.
Proof.
  intros H. destruct (nth_error l n) eqn:E; [eauto|]. apply nth_error_None in E. lia.
Qed.

(** ** searching *)
Lemma match_at_spec sub s : forall t, (t + length sub <= length s)%nat ->
  exists b, match_at sub s t = SOk b /\ (b = true <-> exists post, skipn t s = sub ++ post).
Proof.
  induction sub as [|x sub IH]; intros t H; cbn [match_at length] in *.
  - exists true. split; [reflexivity|]. split; [|reflexivity]. intros _. exists (skipn t s). reflexivity.
  - destruct (nth_error_lt s t ltac:(lia)) as (y & E). rewrite E.
    pose proof (skipn_S_nth _ _ _ E) as K.
    destruct (Z.eqb_spec x y) as [->|N].
    + destruct (IH (S t) ltac:(lia)) as (b & Eb & Hb). exists b. split; [exact Eb|].
      rewrite Hb, K. split; intros (post & P); exists post; cbn [app] in *; congruence.
    + exists false. split; [reflexivity|]. split; [discriminate|]. intros (post & P).
      rewrite K in P. cbn [app] in P. injection P. intros. exfalso. apply N. auto.
Qed.

Lemma occurs_skipn p s i : occurs p s i <-> (i <= length s)%nat /\ exists post, skipn i s = p ++ post.
Proof.
  split.
  - intros (pre & post & -> & <-). rewrite app_length. split; [lia|]. exists post.
    rewrite skipn_app, Nat.sub_diag, skipn_all. reflexivity.
  - intros (H & post & E). exists (firstn i s), post. split.
    + rewrite <- E. symmetry. apply firstn_skipn.
    + apply firstn_length_le, H.
Qed.

Lemma occurs_len p s i : occurs p s i -> (i + length p <= length s)%nat.
Proof. intros (pre & post & -> & <-). rewrite !app_length. lia. Qed.

Lemma match_at_occurs sub s t : (t + length sub <= length s)%nat ->
  exists b, match_at sub s t = SOk b /\ (b = true <-> occurs sub s t).
Proof.
  intros H. destruct (match_at_spec sub s t H) as (b & E & I). exists b. split; [exact E|].
  rewrite I, occurs_skipn. split; [intros K; split; [lia|exact K] | intros (_ & K); exact K].
Qed.

Lemma scan_up_spec sub s : forall n c, (c + n = S (length s - length sub))%nat -> (length sub <= length s)%nat ->
  exists r, scan_up n sub s c = SOk r /\ first_from sub s c r.
Proof.
  induction n; intros c H L; cbn [scan_up].
  - exists (-1). split; [reflexivity|]. right. split; [reflexivity|]. intros j Hj O.
    apply occurs_len in O. lia.
  - destruct (match_at_occurs sub s c ltac:(lia)) as (b & E & I). rewrite E. cbn [sbind].
    destruct b.
    + exists (Z.of_nat c). split; [reflexivity|]. left. exists c. split; [reflexivity|]. split; [lia|].
      split; [apply I; reflexivity|]. intros; lia.
    + destruct (IHn (S c) ltac:(lia) L) as (r & Er & F). exists r. split; [exact Er|].
      assert (N : ~ occurs sub s c) by (rewrite <- I; discriminate).
      destruct F as [(i & -> & Hi & O & M) | (-> & M)].
      * left. exists i. split; [reflexivity|]. split; [lia|]. split; [exact O|].
        intros j Hj Oj. destruct (Nat.eq_dec j c) as [->|]; [contradiction|]. apply M; [lia|exact Oj].
      * right. split; [reflexivity|]. intros j Hj Oj. destruct (Nat.eq_dec j c) as [->|]; [contradiction|].
        apply (M j); [lia|exact Oj].
Qed.

Theorem index_of_spec s sub pos : exists r, index_of s sub pos = SOk r /\ first_from sub s pos r.
Proof.
  unfold index_of. destruct (Nat.eqb_spec (length sub) 0) as [Z0|Z0]; cbn [andb].
  - destruct sub; [|discriminate]. destruct (Nat.leb_spec pos (length s)).
    + exists (Z.of_nat pos). split; [reflexivity|]. left. exists pos. split; [reflexivity|]. split; [lia|].
      split; [|intros; lia]. apply occurs_skipn. split; [lia|]. eexists; reflexivity.
    + rewrite (proj2 (Nat.ltb_lt (length s) pos)) by lia. exists (-1). split; [reflexivity|].
      right. split; [reflexivity|]. intros j Hj O. apply occurs_len in O. lia.
  - destruct (Nat.ltb_spec (length s) pos); cbn [orb].
    { exists (-1). split; [reflexivity|]. right. split; [reflexivity|]. intros j Hj O. apply occurs_len in O. lia. }
    destruct (Nat.ltb_spec (length s - pos) (length sub)).
    { exists (-1). split; [reflexivity|]. right. split; [reflexivity|]. intros j Hj O. apply occurs_len in O. lia. }
    apply scan_up_spec; lia.
Qed.

Lemma scan_down_spec sub s : forall c, (c + length sub <= length s)%nat ->
  exists r, scan_down sub s c = SOk r /\ last_upto sub s c r.
Proof.
  induction c; intros H; cbn [scan_down];
    destruct (match_at_occurs sub s _ H) as (b & E & I); rewrite E; cbn [sbind]; destruct b.
  - exists 0. split; [reflexivity|]. left. exists 0%nat. split; [reflexivity|]. split; [lia|].
    split; [apply I; reflexivity|]. intros; lia.
  - exists (-1). split; [reflexivity|]. right. split; [reflexivity|]. intros j Hj O.
    replace j with 0%nat in O by lia. apply I in O. discriminate.
  - eexists. split; [reflexivity|]. left. exists (S c). split; [reflexivity|]. split; [lia|].
    split; [apply I; reflexivity|]. intros; lia.
  - destruct (IHc ltac:(lia)) as (r & Er & F). exists r. split; [exact Er|].
    assert (N : ~ occurs sub s (S c)) by (rewrite <- I; discriminate).
    destruct F as [(i & -> & Hi & O & M) | (-> & M)].
    + left. exists i. split; [reflexivity|]. split; [lia|]. split; [exact O|].
      intros j Hj Oj. destruct (Nat.eq_dec j (S c)) as [->|]; [contradiction|]. apply M; [lia|exact Oj].
    + right. split; [reflexivity|]. intros j Hj Oj. destruct (Nat.eq_dec j (S c)) as [->|]; [contradiction|].
      apply (M j); [lia|exact Oj].
Qed.

Theorem last_index_of_spec s sub pos : exists r, last_index_of s sub pos = SOk r /\ last_upto sub s pos r.
Proof.
  unfold last_index_of. destruct (Nat.ltb_spec (length s) (length sub)) as [L|L].
  { exists (-1). split; [reflexivity|]. right. split; [reflexivity|]. intros j Hj O. apply occurs_len in O. lia. }
  assert (K : forall r, last_upto sub s (Nat.min pos (length s - length sub)) r -> last_upto sub s pos r).
  { intros r [(i & -> & Hi & O & M) | (-> & M)].
    - left. exists i. split; [reflexivity|]. split; [lia|]. split; [exact O|].
      intros j Hj Oj. apply M; [|exact Oj]. apply occurs_len in Oj. lia.
    - right. split; [reflexivity|]. intros j Hj Oj. apply (M j); [|exact Oj]. apply occurs_len in Oj. lia. }
  destruct (Nat.eqb_spec (length sub) 0) as [Z0|Z0].
  - eexists. split; [reflexivity|]. apply K. destruct sub; [|discriminate]. left. eexists. split; [reflexivity|].
    split; [lia|]. split; [|intros; lia]. apply occurs_skipn. split; [lia|]. eexists; reflexivity.
  - destruct (scan_down_spec sub s (Nat.min pos (length s - length sub)) ltac:(lia)) as (r & E & F).
    exists r. split; [exact E|]. apply K, F.
Qed.

(** JavaScript level.  [start_of]: the position a clamped argument denotes. *)
Lemma to_size_ok z : 0 <= z < 2 ^ 64 -> to_size z = SOk (Z.to_nat z).
Proof.
  intros H. unfold to_size. rewrite (proj2 (Z.leb_le 0 z)), (proj2 (Z.ltb_lt z (2 ^ 64))) by lia. reflexivity.
Qed.

Lemma clamp_range p l : 0 <= l -> 0 <= clamp p 0 l <= l.
Proof. intros H. destruct p; cbn [clamp]; lia. Qed.

Lemma to_size_clamp p (s : str) : len s < 2 ^ 64 ->
  to_size (clamp p 0 (len s)) = SOk (Z.to_nat (clamp p 0 (len s))) /\
  (Z.to_nat (clamp p 0 (len s)) <= length s)%nat.
Proof.
  intros H. pose proof (clamp_range p (len s) ltac:(unfold len; lia)). split.
  - apply to_size_ok. lia.
  - unfold len in *. lia.
Qed.

Theorem js_indexOf_spec s sub posn : len s < 2 ^ 64 ->
  exists r, js_indexOf s sub posn = SOk r /\ first_from sub s (Z.to_nat (clamp posn 0 (len s))) r.
Proof.
  intros H. unfold js_indexOf. destruct (to_size_clamp posn s H) as (-> & _). cbn [sbind]. apply index_of_spec.
Qed.

Theorem js_includes_spec s sub posn : len s < 2 ^ 64 ->
  exists r, js_includes s sub posn = SOk r /\
    (r = true <-> exists i, (Z.to_nat (clamp posn 0 (len s)) <= i)%nat /\ occurs sub s i).
Proof.
  intros H. unfold js_includes. destruct (to_size_clamp posn s H) as (-> & _). cbn [sbind].
  destruct (index_of_spec s sub (Z.to_nat (clamp posn 0 (len s)))) as (r & -> & F). cbn [sbind].
  eexists. split; [reflexivity|]. destruct F as [(i & -> & Hi & O & M) | (-> & M)].
  - rewrite (proj2 (Z.eqb_neq _ _)) by lia. split; [intros _; eauto|reflexivity].
  - split; [discriminate|]. intros (i & Hi & O). destruct (M i Hi O).
Qed.

(** lastIndexOf: the clamp bound len - slen is negative when the pattern is
    longer than the text: the conversion to size_t is undefined there. *)
Theorem js_lastIndexOf_spec s sub posn : len s < 2 ^ 64 -> len sub <= len s ->
  exists r, js_lastIndexOf s sub posn = SOk r /\
    last_upto sub s (Z.to_nat (clamp posn 0 (len s))) r.
Proof.
  intros H L. unfold js_lastIndexOf.
  pose proof (clamp_range posn (len s - len sub) ltac:(lia)) as C.
  rewrite to_size_ok by (unfold len in *; lia). cbn [sbind].
  destruct (last_index_of_spec s sub (Z.to_nat (clamp posn 0 (len s - len sub)))) as (r & E & F).
  exists r. split; [exact E|].
  assert (P : (Z.to_nat (clamp posn 0 (len s - len sub)) <= Z.to_nat (clamp posn 0 (len s)))%nat).
  { destruct posn; cbn [clamp]; unfold len in *; lia. }
  assert (Q : forall j, (j + length sub <= length s)%nat -> (j <= Z.to_nat (clamp posn 0 (len s)))%nat ->
                        (j <= Z.to_nat (clamp posn 0 (len s - len sub)))%nat).
  { intros j. destruct posn; cbn [clamp]; unfold len in *; lia. }
  destruct F as [(i & -> & Hi & O & M) | (-> & M)].
  - left. exists i. split; [reflexivity|]. split; [lia|]. split; [exact O|].
    intros j Hj Oj. apply M; [|exact Oj]. apply Q; [apply occurs_len in Oj; lia|lia].
  - right. split; [reflexivity|]. intros j Hj Oj. apply (M j); [|exact Oj].
    apply Q; [apply occurs_len in Oj; lia|lia].
Qed.

Theorem js_lastIndexOf_ub s sub posn : len s < len sub -> js_lastIndexOf s sub posn = SUB.
Proof.
  intros H. unfold js_lastIndexOf, to_size.
  assert (clamp posn 0 (len s - len sub) < 0) by (destruct posn; cbn [clamp]; lia).
  rewrite (proj2 (Z.leb_gt 0 _)) by lia. reflexivity.
Qed.

(** ** comparison *)
Lemma lex_lt_cons x a b : lex_lt (x :: a) (x :: b) <-> lex_lt a b.
Proof.
  split.
  - intros [(y & r & E) | (p & y & z & ra & rb & E1 & E2 & L)].
    + cbn [app] in E. injection E as E. left. eauto.
    + destruct p as [|w p]; cbn [app] in *.
      * injection E1 as -> _. injection E2 as -> _. lia.
      * injection E1 as -> E1. injection E2 as E2. right. exists p, y, z, ra, rb. auto.
  - intros [(y & r & ->) | (p & y & z & ra & rb & -> & -> & L)].
    + left. exists y, r. reflexivity.
    + right. exists (x :: p), y, z, ra, rb. auto.
Qed.

Theorem compare_spec a : forall b,
  match compare a b with
  | EQUAL => a = b
  | LESS => lex_lt a b
  | GREATER => lex_lt b a
  end.
Proof.
  induction a as [|x a IH]; intros [|y b]; cbn [compare].
  - reflexivity.
  - left. exists y, b. reflexivity.
  - left. exists x, a. reflexivity.
  - destruct (Z.ltb_spec (x - y) 0).
    + right. exists [], x, y, a, b. repeat split. lia.
    + destruct (Z.ltb_spec 0 (x - y)).
      * right. exists [], y, x, b, a. repeat split. lia.
      * replace y with x by lia. specialize (IH b). destruct (compare a b).
        -- congruence.
        -- apply lex_lt_cons, IH.
        -- apply lex_lt_cons, IH.
Qed.

Lemma lex_irrefl a : ~ lex_lt a a.
Proof.
  induction a as [|x a IH]; [|rewrite lex_lt_cons; exact IH].
  intros [(y & r & E) | (p & y & z & ra & rb & E & _ & _)]; [discriminate|].
  destruct p; discriminate.
Qed.

Lemma lex_nil_r a : ~ lex_lt a [].
Proof.
  intros [(y & r & E) | (p & y & z & ra & rb & _ & E & _)]; [destruct a; discriminate|destruct p; discriminate].
Qed.

Lemma lex_cons_inv x a y b : lex_lt (x :: a) (y :: b) <-> x < y \/ (x = y /\ lex_lt a b).
Proof.
  split.
  - intros [(z & r & E) | (p & u & v & ra & rb & E1 & E2 & L)].
    + cbn [app] in E. injection E as -> ->. right. split; [reflexivity|]. left. eauto.
    + destruct p as [|w p]; cbn [app] in *.
      * injection E1 as -> ->. injection E2 as -> ->. left. exact L.
      * injection E1 as -> ->. injection E2 as -> ->. right. split; [reflexivity|]. right.
        exists p, u, v, ra, rb. auto.
  - intros [L | (-> & L)].
    + right. exists [], x, y, a, b. auto.
    + apply lex_lt_cons, L.
Qed.

Lemma lex_trans a : forall b c, lex_lt a b -> lex_lt b c -> lex_lt a c.
Proof.
  induction a as [|x a IH]; intros b c H1 H2.
  - destruct c as [|z c]; [destruct (lex_nil_r _ H2)|]. left. exists z, c. reflexivity.
  - destruct b as [|y b]; [destruct (lex_nil_r _ H1)|].
    destruct c as [|z c]; [destruct (lex_nil_r _ H2)|].
    apply lex_cons_inv in H1, H2. apply lex_cons_inv.
    destruct H1 as [H1 | (-> & H1)], H2 as [H2 | (-> & H2)]; try (left; lia).
    right. split; [reflexivity|]. eauto.
Qed.

Lemma lex_total a b : lex_lt a b \/ a = b \/ lex_lt b a.
Proof. pose proof (compare_spec a b). destruct (compare a b); auto. Qed.

Theorem compare_less a b : compare a b = LESS <-> lex_lt a b.
Proof.
  pose proof (compare_spec a b) as H. destruct (compare a b); split; intros K; try discriminate; auto.
  - subst. destruct (lex_irrefl _ K).
  - destruct (lex_irrefl a). eapply lex_trans; eauto.
Qed.

Theorem compare_greater a b : compare a b = GREATER <-> lex_lt b a.
Proof.
  pose proof (compare_spec a b) as H. destruct (compare a b); split; intros K; try discriminate; auto.
  - subst. destruct (lex_irrefl _ K).
  - destruct (lex_irrefl a). eapply lex_trans; eauto.
Qed.

Theorem compare_equal a b : compare a b = EQUAL <-> a = b.
Proof.
  pose proof (compare_spec a b) as H. destruct (compare a b); split; intros K; try discriminate; auto.
  - subst. destruct (lex_irrefl _ H).
  - subst. destruct (lex_irrefl _ H).
Qed.

Lemma uchars_equal_spec a : forall b, length a = length b -> (uchars_equal a b = true <-> a = b).
Proof.
  induction a as [|x a IH]; intros [|y b] L; try discriminate; cbn [uchars_equal].
  - split; reflexivity.
  - injection L as L. destruct (Z.eqb_spec x y) as [->|N].
    + rewrite (IH b L). split; congruence.
    + split; [discriminate|congruence].
Qed.

Theorem content_equal_spec a b : content_equal a b = true <-> a = b.
Proof.
  unfold content_equal. destruct (Nat.eqb_spec (length a) (length b)) as [L|L].
  - apply uchars_equal_spec, L.
  - split; [discriminate|]. intros ->. congruence.
Qed.

(** ** startsWith / endsWith *)
Lemma firstn_occurs s sub i : (i + length sub <= length s)%nat ->
  (firstn (length sub) (skipn i s) = sub <-> occurs sub s i).
Proof.
  intros H. rewrite occurs_skipn. split.
  - intros E. split; [lia|]. exists (skipn (length sub) (skipn i s)).
    rewrite <- (firstn_skipn (length sub) (skipn i s)) at 1. rewrite E. reflexivity.
  - intros (_ & post & ->). rewrite firstn_app, Nat.sub_diag, firstn_all. cbn [firstn]. apply app_nil_r.
Qed.

Theorem js_startsWith_spec s sub posn : len s < 2 ^ 64 ->
  exists r, js_startsWith s sub posn = SOk r /\
    (r = true <-> occurs sub s (Z.to_nat (clamp posn 0 (len s)))).
Proof.
  intros H. unfold js_startsWith. destruct (to_size_clamp posn s H) as (-> & B). cbn [sbind].
  set (st := Z.to_nat (clamp posn 0 (len s))) in *.
  destruct (Nat.eqb_spec (length sub) 0) as [Z0|Z0].
  { destruct sub; [|discriminate]. exists true. split; [reflexivity|]. split; [|reflexivity]. intros _.
    apply occurs_skipn. split; [lia|]. eexists; reflexivity. }
  destruct (Nat.ltb_spec (length s) (st + length sub)) as [L|L].
  { exists false. split; [reflexivity|]. split; [discriminate|]. intros O. apply occurs_len in O. lia. }
  rewrite substr_ok by lia. cbn [sbind]. eexists. split; [reflexivity|].
  rewrite content_equal_spec. replace (st + length sub - st)%nat with (length sub) by lia.
  apply firstn_occurs; lia.
Qed.

Theorem js_endsWith_spec s sub posn : len s < 2 ^ 64 ->
  let stop := match posn with None => length s | Some p => Z.to_nat (clamp p 0 (len s)) end in
  exists r, js_endsWith s sub posn = SOk r /\
    (r = true <-> exists i, (i + length sub = stop)%nat /\ occurs sub s i).
Proof.
  intros H stop. unfold js_endsWith.
  set (p := match posn with None => Fin (len s) | Some p => p end).
  destruct (to_size_clamp p s H) as (-> & B). cbn [sbind].
  assert (E : Z.to_nat (clamp p 0 (len s)) = stop).
  { unfold p, stop. destruct posn; [reflexivity|]. cbn [clamp]. unfold len. lia. }
  rewrite E in *. clearbody p stop.
  destruct (Nat.eqb_spec (length sub) 0) as [Z0|Z0].
  { destruct sub; [|discriminate]. exists true. split; [reflexivity|]. split; [|reflexivity]. intros _.
    exists stop. cbn [length]. split; [lia|]. apply occurs_skipn. split; [lia|]. eexists; reflexivity. }
  destruct (Nat.ltb_spec stop (length sub)) as [L|L].
  { exists false. split; [reflexivity|]. split; [discriminate|]. intros (i & Hi & O). lia. }
  rewrite substr_ok by lia. cbn [sbind]. eexists. split; [reflexivity|].
  rewrite content_equal_spec. replace (stop - (stop - length sub))%nat with (length sub) by lia.
  rewrite firstn_occurs by lia. split.
  - intros O. exists (stop - length sub)%nat. split; [lia|exact O].
  - intros (i & Hi & O). replace (stop - length sub)%nat with i by lia. exact O.
Qed.

(** ** trim *)
Lemma trim_start_spec ws s e : (e <= length s)%nat -> forall fuel b, (b <= e)%nat -> (e - b <= fuel)%nat ->
  exists b', trim_start_loop ws fuel s b e = SOk b' /\ (b <= b' <= e)%nat /\
    (forall i, (b <= i < b')%nat -> ws (nth i s 0) = true) /\
    ((b' < e)%nat -> ws (nth b' s 0) = false).
Proof.
  intros He. induction fuel; intros b Hb Hf; cbn [trim_start_loop].
  - exists b. split; [reflexivity|]. split; [lia|]. split; intros; lia.
  - destruct (Nat.ltb_spec b e).
    + destruct (nth_error_lt s b ltac:(lia)) as (c & E). rewrite E.
      pose proof (nth_error_nth _ _ 0 E) as N.
      destruct (ws c) eqn:W.
      * destruct (IHfuel (S b) ltac:(lia) ltac:(lia)) as (b' & -> & R & A & F). exists b'.
        split; [reflexivity|]. split; [lia|]. split; [|exact F].
        intros i Hi. destruct (Nat.eq_dec i b) as [->|]; [congruence|]. apply A. lia.
      * exists b. split; [reflexivity|]. split; [lia|]. split; [intros; lia|]. intros _. congruence.
    + exists b. split; [reflexivity|]. split; [lia|]. split; intros; lia.
Qed.

Lemma trim_end_spec ws s b : forall fuel e, (b <= e)%nat -> (e <= length s)%nat -> (e - b <= fuel)%nat ->
  exists e', trim_end_loop ws fuel s b e = SOk e' /\ (b <= e' <= e)%nat /\
    (forall i, (e' <= i < e)%nat -> ws (nth i s 0) = true) /\
    ((b < e')%nat -> ws (nth (e' - 1) s 0) = false).
Proof.
  induction fuel; intros e Hb He Hf; cbn [trim_end_loop].
  - exists e. split; [reflexivity|]. split; [lia|]. split; intros; lia.
  - destruct (Nat.ltb_spec b e).
    + destruct (nth_error_lt s (e - 1) ltac:(lia)) as (c & E). rewrite E.
      pose proof (nth_error_nth _ _ 0 E) as N.
      destruct (ws c) eqn:W.
      * destruct (IHfuel (e - 1)%nat ltac:(lia) ltac:(lia) ltac:(lia)) as (e' & -> & R & A & F). exists e'.
        split; [reflexivity|]. split; [lia|]. split; [|exact F].
        intros i Hi. destruct (Nat.eq_dec i (e - 1)) as [->|]; [congruence|]. apply A. lia.
      * exists e. split; [reflexivity|]. split; [lia|]. split; [intros; lia|]. intros _. congruence.
    + exists e. split; [reflexivity|]. split; [lia|]. split; intros; lia.
Qed.

Lemma Forall_firstn_nth (P : Z -> Prop) s n : (n <= length s)%nat ->
  (forall i, (i < n)%nat -> P (nth i s 0)) -> Forall P (firstn n s).
Proof.
  intros L H. apply Forall_forall. intros x Hx. apply In_nth with (d := 0) in Hx. destruct Hx as (i & Hi & E).
  rewrite firstn_length in Hi. rewrite <- E.
  rewrite <- (firstn_skipn n s) in H. specialize (H i). rewrite app_nth1 in H by (rewrite firstn_length; lia).
  apply H. lia.
Qed.

Lemma nth_skipn {A} n (l : list A) i d : nth i (skipn n l) d = nth (n + i) l d.
Proof.
  revert l. induction n; intros l; [reflexivity|]. destruct l; [destruct i; reflexivity|]. apply IHn.
Qed.

Lemma Forall_skipn_nth (P : Z -> Prop) s n :
  (forall i, (n <= i < length s)%nat -> P (nth i s 0)) -> Forall P (skipn n s).
Proof.
  intros H. apply Forall_forall. intros x Hx. apply In_nth with (d := 0) in Hx. destruct Hx as (i & Hi & E).
  rewrite skipn_length in Hi. rewrite <- E, nth_skipn. apply H. lia.
Qed.

Theorem trim_spec ws at_start at_end s :
  exists r, trim ws at_start at_end s = SOk r /\ trimmed (fun c => ws c = true) at_start at_end s r.
Proof.
  unfold trim.
  assert (B : exists b, (if at_start then trim_start_loop ws (length s) s 0 (length s) else SOk 0%nat) = SOk b /\
     (b <= length s)%nat /\ (forall i, (i < b)%nat -> ws (nth i s 0) = true) /\
     (if at_start then (b < length s)%nat -> ws (nth b s 0) = false else b = 0%nat)).
  { destruct at_start.
    - destruct (trim_start_spec ws s (length s) ltac:(lia) (length s) 0%nat ltac:(lia) ltac:(lia)) as (b & E & R & A & F).
      exists b. split; [exact E|]. split; [lia|]. split; [|exact F]. intros i Hi. apply A. lia.
    - exists 0%nat. split; [reflexivity|]. split; [lia|]. split; [intros; lia|reflexivity]. }
  destruct B as (b & -> & Hb & A & F). cbn [sbind].
  assert (X : exists e, (if at_end then trim_end_loop ws (length s) s b (length s) else SOk (length s)) = SOk e /\
     (b <= e <= length s)%nat /\ (forall i, (e <= i < length s)%nat -> ws (nth i s 0) = true) /\
     (if at_end then (b < e)%nat -> ws (nth (e - 1) s 0) = false else e = length s)).
  { destruct at_end.
    - destruct (trim_end_spec ws s b (length s) (length s) ltac:(lia) ltac:(lia) ltac:(lia)) as (e & E & R & A' & F').
      exists e. split; [exact E|]. split; [lia|]. split; [exact A'|exact F'].
    - exists (length s). split; [reflexivity|]. split; [lia|]. split; [intros; lia|reflexivity]. }
  destruct X as (e & -> & He & A' & F'). cbn [sbind].
  rewrite substr_ok by lia. eexists. split; [reflexivity|].
  destruct (substr_split s b e _ (substr_ok s b e ltac:(lia) ltac:(lia))) as (_ & Sp & Ln).
  set (r := firstn (e - b) (skipn b s)) in *.
  exists (firstn b s), (skipn e s). split; [exact Sp|].
  assert (Nr : forall i, (i < length r)%nat -> nth i r 0 = nth (b + i) s 0).
  { intros i Hi. rewrite Sp at 1. rewrite app_nth2 by (rewrite firstn_length; lia).
    rewrite firstn_length. replace (b + i - Nat.min b (length s))%nat with i by lia.
    rewrite app_nth1 by lia. reflexivity. }
  split; [apply Forall_firstn_nth; [lia|]; intros i Hi; apply A; lia|].
  split; [apply Forall_skipn_nth; intros i Hi; apply A'; lia|]. split.
  - destruct at_start; [|subst b; reflexivity]. intros c t Er W.
    assert (Hl : (b < e)%nat) by (rewrite Er in Ln; cbn [length] in Ln; lia).
    specialize (F ltac:(lia)). specialize (Nr 0%nat ltac:(rewrite Er; cbn [length]; lia)). rewrite Er in Nr.
    cbn [nth] in Nr. rewrite Nat.add_0_r in Nr. congruence.
  - destruct at_end; [|subst e; apply skipn_all]. intros c t Er W.
    assert (Hl : (b + length t + 1 = e)%nat) by (rewrite Er, app_length in Ln; cbn [length] in Ln; lia).
    specialize (F' ltac:(lia)). specialize (Nr (length t) ltac:(rewrite Er, app_length; cbn [length]; lia)).
    rewrite Er, nth_middle in Nr. replace (e - 1)%nat with (b + length t)%nat in F' by lia. congruence.
Qed.

(** the characters trimmed: ECMAScript white space plus U+0085 *)
Theorem white_space_spec c : is_white_space c = true <-> es_space c \/ c = 0x85.
Proof.
  unfold is_white_space, u_isUWhiteSpace, es_space. rewrite !orb_true_iff, !andb_true_iff, !Z.eqb_eq, !Z.leb_le.
  cbn [In]. lia.
Qed.

Lemma trimmed_ext (P Q : Z -> Prop) a b s r : (forall c, In c s -> (P c <-> Q c)) ->
  trimmed P a b s r -> trimmed Q a b s r.
Proof.
  intros H (pre & post & E & F1 & F2 & A & B). exists pre, post. split; [exact E|].
  assert (I : forall c, In c pre \/ In c r \/ In c post -> In c s).
  { intros c K. rewrite E, !in_app_iff. tauto. }
  rewrite Forall_forall in F1, F2.
  split; [apply Forall_forall; intros c K; apply H; auto|].
  split; [apply Forall_forall; intros c K; apply H; auto|]. split.
  - destruct a; [|exact A]. intros c t Er K. apply (A c t Er). apply H; [|exact K].
    apply I. right. left. rewrite Er. left. reflexivity.
  - destruct b; [|exact B]. intros c t Er K. apply (B c t Er). apply H; [|exact K].
    apply I. right. left. rewrite Er, in_app_iff. right. left. reflexivity.
Qed.

Lemma app_split2 {A} (p1 : list A) : forall p2 s1 s2, p1 ++ s1 = p2 ++ s2 ->
  (exists m, p2 = p1 ++ m /\ s1 = m ++ s2) \/ (exists m, p1 = p2 ++ m /\ s2 = m ++ s1).
Proof.
  induction p1 as [|x p1 IH]; intros p2 s1 s2 E.
  - left. exists p2. auto.
  - destruct p2 as [|y p2].
    + right. exists (x :: p1). auto.
    + cbn [app] in E. injection E as <- E. destruct (IH _ _ _ E) as [(m & -> & ->) | (m & -> & ->)];
        [left|right]; exists m; auto.
Qed.

Lemma rev_cases {A} (l : list A) : l = [] \/ exists t c, l = t ++ [c].
Proof. induction l using rev_ind; eauto. Qed.

Lemma trimmed_all_space sp a b s r : trimmed sp a b s r -> a || b = true -> Forall sp s -> r = [].
Proof.
  intros (pre & post & -> & _ & _ & A & B) H F. rewrite !Forall_app in F. destruct F as (_ & Fr & _).
  destruct a.
  - destruct r as [|c r]; [reflexivity|]. destruct (A c r eq_refl). inversion Fr; assumption.
  - destruct b; [|discriminate]. destruct (rev_cases r) as [->|(t & c & ->)]; [reflexivity|].
    destruct (B c t eq_refl). rewrite Forall_app in Fr. destruct Fr as (_ & Fr). inversion Fr; assumption.
Qed.

(** the start of what is kept is fixed *)
Lemma trimmed_end (sp : Z -> Prop) (b : bool) (r1 r2 post1 post2 : list Z) : r1 ++ post1 = r2 ++ post2 ->
  Forall sp post1 -> Forall sp post2 ->
  (if b then forall c t, r1 = t ++ [c] -> ~ sp c else post1 = []) ->
  (if b then forall c t, r2 = t ++ [c] -> ~ sp c else post2 = []) -> r1 = r2.
Proof.
  intros E F1 F2 B1 B2. destruct b; [|subst; rewrite !app_nil_r in E; exact E].
  destruct (app_split2 _ _ _ _ E) as [(m & -> & ->) | (m & -> & ->)];
    destruct (rev_cases m) as [->|(t & c & ->)]; try (rewrite app_nil_r; reflexivity).
  - destruct (B2 c (r1 ++ t)); [apply app_assoc|]. rewrite !Forall_app in F1. destruct F1 as ((_ & K) & _). inversion K; assumption.
  - destruct (B1 c (r2 ++ t)); [apply app_assoc|]. rewrite !Forall_app in F2. destruct F2 as ((_ & K) & _). inversion K; assumption.
Qed.

Theorem trimmed_unique sp a b s r1 r2 : trimmed sp a b s r1 -> trimmed sp a b s r2 -> r1 = r2.
Proof.
  intros T1 T2. pose proof T1 as (pre1 & post1 & E1 & F1 & G1 & A1 & B1).
  pose proof T2 as (pre2 & post2 & E2 & F2 & G2 & A2 & B2).
  assert (W : forall pre r post pre' r' post' m, s = pre ++ r ++ post -> Forall sp pre' -> Forall sp post ->
     pre' = pre ++ m -> r ++ post = m ++ r' ++ post' ->
     (a = true -> forall c t, r = c :: t -> ~ sp c) -> a = true -> m = [] \/ Forall sp s).
  { intros pre r post pre' r' post' m Es F G -> Em A Ha. destruct m as [|x m]; [left; reflexivity|].
    right. rewrite Forall_app in F. destruct F as (Fp & Fm). destruct r as [|c r].
    - rewrite Es. cbn [app]. apply Forall_app. split; assumption.
    - cbn [app] in Em. injection Em as -> _. destruct (A Ha x r eq_refl). inversion Fm; assumption. }
  destruct a.
  - rewrite E1 in E2. destruct (app_split2 _ _ _ _ E2) as [(m & Ep & Es) | (m & Ep & Es)].
    + destruct (W pre1 r1 post1 pre2 r2 post2 m E1 F2 G1 Ep Es (fun _ => A1) eq_refl) as [-> | Fs].
      * cbn [app] in Es. eapply trimmed_end; eassumption.
      * rewrite (trimmed_all_space _ _ _ _ _ T1 eq_refl Fs), (trimmed_all_space _ _ _ _ _ T2 eq_refl Fs). reflexivity.
    + pose proof T2 as (pre2' & post2' & E2' & _). clear pre2' post2' E2'.
      assert (E2' : s = pre2 ++ r2 ++ post2) by (rewrite E1; exact E2).
      destruct (W pre2 r2 post2 pre1 r1 post1 m E2' F1 G2 Ep Es (fun _ => A2) eq_refl) as [-> | Fs].
      * cbn [app] in Es. symmetry in Es. eapply trimmed_end; eassumption.
      * rewrite (trimmed_all_space _ _ _ _ _ T1 eq_refl Fs), (trimmed_all_space _ _ _ _ _ T2 eq_refl Fs). reflexivity.
  - subst pre1 pre2. rewrite E1 in E2. cbn [app] in E2. eapply trimmed_end; eassumption.
Qed.

Theorem trim_es at_start at_end s : ~ In 0x85 s ->
  exists r, trim is_white_space at_start at_end s = SOk r /\ trimmed es_space at_start at_end s r.
Proof.
  intros H. destruct (trim_spec is_white_space at_start at_end s) as (r & E & T). exists r. split; [exact E|].
  refine (trimmed_ext _ _ _ _ _ _ _ T). intros c Hc. rewrite white_space_spec. split; [|auto].
  intros [K|K]; [exact K|]. subst c. contradiction.
Qed.

(** ** pad *)
Lemma pad_loop_spec p : p <> [] -> forall fuel n, (n <= fuel)%nat -> filler p n (pad_loop fuel p n).
Proof.
  intros Hp. assert (Lp : (0 < length p)%nat) by (destruct p; [congruence|cbn [length]; lia]).
  induction fuel; intros n Hn; cbn [pad_loop].
  - split; [cbn [length]; lia|intros; lia].
  - destruct (Nat.ltb_spec 0 n); [|split; [cbn [length]; lia|intros; lia]].
    destruct (Nat.leb_spec (length p) n).
    + destruct (IHfuel (n - length p)%nat ltac:(lia)) as (L & F). split; [rewrite app_length; lia|].
      intros i Hi. destruct (Nat.lt_ge_cases i (length p)).
      * rewrite app_nth1, Nat.mod_small by lia. reflexivity.
      * rewrite app_nth2, F by lia. f_equal.
        replace i with ((i - length p) + 1 * length p)%nat at 2 by lia. rewrite Nat.mod_add by lia. reflexivity.
    + split; [rewrite firstn_length; lia|]. intros i Hi. rewrite Nat.mod_small by lia.
      rewrite <- (firstn_skipn n p) at 2. rewrite app_nth1 by (rewrite firstn_length; lia). reflexivity.
Qed.

Theorem pad_spec at_start s max_len fill :
  let p := match fill with None => [32] | Some p => p end in
  let target := to_length max_len in
  if (target <=? len s) || (length p =? 0)%nat then pad at_start s max_len fill = s
  else exists f, filler p (Z.to_nat (target - len s)) f /\
                 pad at_start s max_len fill = (if at_start then f ++ s else s ++ f) /\
                 len (pad at_start s max_len fill) = target.
Proof.
  intros p target.
  assert (Ep : pad at_start s max_len fill =
    if target <? len s then s else match p with [] => s | _ =>
      let n := Z.to_nat (target - len s) in if at_start then pad_loop n p n ++ s else s ++ pad_loop n p n end)
    by reflexivity.
  rewrite Ep. clear Ep. clearbody p target. cbv zeta.
  destruct (Z.leb_spec target (len s)) as [L|L]; cbn [orb].
  - destruct (Z.ltb_spec target (len s)); [reflexivity|].
    replace (Z.to_nat (target - len s)) with 0%nat by lia. cbn [pad_loop].
    destruct p; [reflexivity|]. destruct at_start; [reflexivity|apply app_nil_r].
  - destruct (Nat.eqb_spec (length p) 0) as [E|E].
    + destruct p; [|discriminate]. destruct (Z.ltb_spec target (len s)); reflexivity.
    + destruct (Z.ltb_spec target (len s)); [lia|].
      destruct p as [|c q]; [cbn [length] in E; congruence|].
      destruct (pad_loop_spec (c :: q) ltac:(discriminate) (Z.to_nat (target - len s)) (Z.to_nat (target - len s)) ltac:(lia)) as (Lf & F).
      eexists. split; [split; [exact Lf|exact F]|]. split; [reflexivity|].
      unfold len in *. destruct at_start; rewrite app_length, Lf; lia.
Qed.

(** ** slice / substring / at *)
Theorem js_substring_spec s start stop :
  let a := clamp start 0 (len s) in
  let b := match stop with None => len s | Some e => clamp e 0 (len s) end in
  exists r, js_substring s start stop = SOk r /\
    s = firstn (Z.to_nat (Z.min a b)) s ++ r ++ skipn (Z.to_nat (Z.max a b)) s /\
    len r = Z.max a b - Z.min a b.
Proof.
  intros a b. unfold js_substring. fold a.
  replace (clamp (match stop with None => Fin (len s) | Some e => e end) 0 (len s)) with b.
  2:{ unfold b. destruct stop; [reflexivity|]. cbn [clamp]. unfold len. lia. }
  assert (Ra : 0 <= a <= len s) by (apply clamp_range; unfold len; lia).
  assert (Rb : 0 <= b <= len s) by (unfold b; destruct stop; [apply clamp_range|]; unfold len; lia).
  clearbody a b.
  assert (E : substr s (Z.to_nat (Z.min a b)) (Z.to_nat (Z.max a b)) =
     SOk (firstn (Z.to_nat (Z.max a b) - Z.to_nat (Z.min a b)) (skipn (Z.to_nat (Z.min a b)) s))).
  { apply substr_ok; unfold len in *; lia. }
  destruct (substr_split _ _ _ _ E) as (_ & Sp & Ln). eexists. split; [exact E|]. split; [exact Sp|].
  unfold len. lia.
Qed.

Theorem js_slice_spec s start stop :
  let a := slice_bound start (len s) in
  let b := match stop with None => len s | Some e => slice_bound e (len s) end in
  exists r, js_slice s start stop = SOk r /\
    (b <= a -> r = []) /\
    (a < b -> s = firstn (Z.to_nat a) s ++ r ++ skipn (Z.to_nat b) s /\ len r = b - a).
Proof.
  intros a b. unfold js_slice. fold a.
  replace (slice_bound (match stop with None => Fin (len s) | Some e => e end) (len s)) with b.
  2:{ unfold b. destruct stop; [reflexivity|]. cbn [slice_bound]. pose proof (Nat2Z.is_nonneg (length s)).
      unfold len in *. destruct (Z.ltb_spec (Z.of_nat (length s)) 0); lia. }
  assert (Rg : forall n, 0 <= slice_bound n (len s) <= len s).
  { intros n. unfold slice_bound, len. destruct n; try lia. destruct (Z.ltb_spec z 0); lia. }
  assert (Ra : 0 <= a <= len s) by apply Rg.
  assert (Rb : 0 <= b <= len s) by (unfold b; destruct stop; [apply Rg|unfold len; lia]).
  clearbody a b. destruct (Z.leb_spec b a).
  - exists []. split; [reflexivity|]. split; [reflexivity|lia].
  - assert (E : substr s (Z.to_nat a) (Z.to_nat b) =
       SOk (firstn (Z.to_nat b - Z.to_nat a) (skipn (Z.to_nat a) s))).
    { apply substr_ok; unfold len in *; lia. }
    destruct (substr_split _ _ _ _ E) as (_ & Sp & Ln). eexists. split; [exact E|]. split; [lia|].
    intros _. split; [exact Sp|]. unfold len. lia.
Qed.

Lemma slice_bound_rel z l : rel_bound z l (slice_bound (Fin z) l).
Proof. unfold rel_bound, slice_bound. destruct (Z.ltb_spec z 0); split; lia. Qed.

Lemma substr_one s z : 0 <= z < len s ->
  substr s (Z.to_nat z) (Z.to_nat (z + 1)) = SOk [nth (Z.to_nat z) s 0].
Proof.
  intros H. unfold len in H. rewrite substr_ok by lia.
  replace (Z.to_nat (z + 1) - Z.to_nat z)%nat with 1%nat by lia.
  destruct (nth_error_lt s (Z.to_nat z) ltac:(lia)) as (c & E). rewrite (skipn_S_nth _ _ _ E).
  rewrite (nth_error_nth _ _ 0 E). reflexivity.
Qed.

Theorem js_at_spec s n :
  let k := match n with Fin z => if 0 <=? z then z else len s + z | NInf => -1 | PInf => len s end in
  js_at s n = SOk (if (0 <=? k) && (k <? len s) then Some [nth (Z.to_nat k) s 0] else None).
Proof.
  intros k. unfold js_at. destruct n; cbn beta iota.
  - unfold k. reflexivity.
  - fold k. destruct (Z.ltb_spec k 0); cbn [orb].
    + rewrite (proj2 (Z.leb_gt 0 k)) by lia. reflexivity.
    + rewrite (proj2 (Z.leb_le 0 k)) by lia. destruct (Z.leb_spec (len s) k).
      * rewrite (proj2 (Z.ltb_ge k (len s))) by lia. reflexivity.
      * rewrite (proj2 (Z.ltb_lt k (len s))) by lia. rewrite substr_one by lia. reflexivity.
  - unfold k. rewrite Z.ltb_irrefl, andb_false_r. reflexivity.
Qed.

Theorem js_charAt_spec s n :
  js_charAt s n = SOk (match n with
                       | Fin z => if (0 <=? z) && (z <? len s) then [nth (Z.to_nat z) s 0] else []
                       | _ => [] end).
Proof.
  unfold js_charAt. destruct n; try reflexivity. destruct (Z.ltb_spec z 0); cbn [orb].
  - rewrite (proj2 (Z.leb_gt 0 z)) by lia. reflexivity.
  - rewrite (proj2 (Z.leb_le 0 z)) by lia. destruct (Z.leb_spec (len s) z).
    + rewrite (proj2 (Z.ltb_ge z (len s))) by lia. reflexivity.
    + rewrite (proj2 (Z.ltb_lt z (len s))) by lia. rewrite substr_one by lia. reflexivity.
Qed.

Theorem js_charCodeAt_spec s n :
  js_charCodeAt s n = SOk (match n with
                       | Fin z => if (0 <=? z) && (z <? len s) then Some (nth (Z.to_nat z) s 0) else None
                       | _ => None end).
Proof.
  unfold js_charCodeAt. destruct n; try reflexivity. destruct (Z.ltb_spec z 0); cbn [orb].
  - rewrite (proj2 (Z.leb_gt 0 z)) by lia. reflexivity.
  - rewrite (proj2 (Z.leb_le 0 z)) by lia. destruct (Z.leb_spec (len s) z).
    + rewrite (proj2 (Z.ltb_ge z (len s))) by lia. reflexivity.
    + rewrite (proj2 (Z.ltb_lt z (len s))) by lia. unfold len in *.
      destruct (nth_error_lt s (Z.to_nat z) ltac:(lia)) as (c & E). rewrite E, (nth_error_nth _ _ 0 E). reflexivity.
Qed.

(** ** repeat *)
Lemma copies_length n s : length (copies n s) = (n * length s)%nat.
Proof. induction n; cbn [copies]; [reflexivity|]. rewrite app_length. lia. Qed.

Lemma copies_nth n s i : (i < n * length s)%nat -> nth i (copies n s) 0 = nth (i mod length s) s 0.
Proof.
  revert i. induction n; intros i H; [lia|]. cbn [copies].
  assert (0 < length s)%nat by (destruct (length s); lia).
  destruct (Nat.lt_ge_cases i (length s)).
  - rewrite app_nth1, Nat.mod_small by lia. reflexivity.
  - rewrite app_nth2, IHn by lia. f_equal. replace i with ((i - length s) + 1 * length s)%nat at 2 by lia.
    rewrite Nat.mod_add by lia. reflexivity.
Qed.

Theorem js_repeat_ok mem s n : 0 <= mem < 2 ^ 63 -> 0 <= n -> 2 * (n * len s) < 2 ^ 64 -> n < 2 ^ 64 ->
  js_repeat mem s (Fin n) =
    if mem <? 2 * (n * len s) then SThrow else SOk (copies (Z.to_nat n) s).
Proof.
  intros Hm Hn Ht Hn2. unfold js_repeat. rewrite (proj2 (Z.ltb_ge n 0)), (proj2 (Z.leb_gt (2 ^ 64) n)) by lia.
  assert (P : 0 <= n * len s) by (unfold len; lia).
  change (2 ^ 64) with 18446744073709551616 in *. change (2 ^ 63) with 9223372036854775808 in *.
  destruct (Z.eqb_spec n 0) as [->|N0].
  - cbn [Z.mul]. rewrite (proj2 (Z.ltb_ge mem 0)) by lia. reflexivity.
  - rewrite (Z.mod_small (n * len s)) by lia. rewrite (Z.mod_small (2 * (n * len s))) by lia.
    destruct (Z.eqb_spec (n * len s) (18446744073709551616 - 1)); [lia|].
    destruct (Z.ltb_spec mem (2 * (n * len s))); [reflexivity|]. rewrite Z.ltb_irrefl. reflexivity.
Qed.

Theorem js_repeat_safe_iff mem s n : 0 <= mem < 2 ^ 63 ->
  (js_repeat mem s (Fin n) = SUB <->
   0 <= n /\ (2 ^ 64 <= n \/
     (n * len s) mod 2 ^ 64 = 2 ^ 64 - 1 \/
     (2 * (n * len s) mod 2 ^ 64 <= mem /\ 2 ^ 64 <= 2 * (n * len s)))).
Proof.
  intros Hm. unfold js_repeat. assert (L : 0 <= len s) by (unfold len; lia).
  destruct (Z.ltb_spec n 0); [split; [discriminate|lia]|].
  destruct (Z.leb_spec (2 ^ 64) n); [split; [intros _; auto|reflexivity]|].
  assert (P : 0 <= n * len s) by (apply Z.mul_nonneg_nonneg; lia).
  assert (Md : 2 * ((n * len s) mod 2 ^ 64) mod 2 ^ 64 = 2 * (n * len s) mod 2 ^ 64).
  { apply Z.mul_mod_idemp_r. discriminate. }
  destruct (Z.eqb_spec n 0) as [->|N0].
  { split; [discriminate|]. cbn [Z.mul]. rewrite Z.mod_0_l by discriminate.
    change (2 ^ 64) with 18446744073709551616 in *. lia. }
  destruct (Z.eqb_spec ((n * len s) mod 2 ^ 64) (2 ^ 64 - 1)) as [E|E]; [split; [intros _; auto|reflexivity]|].
  rewrite Md.
  assert (B : 0 <= 2 * (n * len s) mod 2 ^ 64 < 2 ^ 64) by (apply Z.mod_pos_bound; reflexivity).
  destruct (Z.ltb_spec mem (2 * (n * len s) mod 2 ^ 64)) as [K|K]; [split; [discriminate|lia]|].
  destruct (Z.ltb_spec (2 * (n * len s) mod 2 ^ 64) (2 * (n * len s))) as [K2|K2].
  - split; [|reflexivity]. intros _. split; [lia|]. right. right. split; [lia|].
    destruct (Z.lt_ge_cases (2 * (n * len s)) (2 ^ 64)) as [G|G]; [|lia].
    rewrite Z.mod_small in K2 by lia. lia.
  - split; [discriminate|]. intros (_ & [?|[?|(? & ?)]]); [lia|contradiction|]. lia.
Qed.

(** ** split *)
Lemma occurs_shift p s k i : (k <= length s)%nat -> (occurs p (skipn k s) i <-> occurs p s (k + i)).
Proof.
  intros H. rewrite !occurs_skipn, skipn_length, skipn_skipn'. split; intros (A & B); (split; [lia|exact B]).
Qed.

Lemma split_loop_spec s ss : (0 < length ss)%nat -> forall fuel start idx n lim,
  (start <= length s)%nat -> (length s - start <= fuel)%nat ->
  first_from ss s start idx -> 0 <= n < lim ->
  exists full r, splits ss (skipn start s) full /\ split_loop fuel s ss start idx n lim = SOk r /\
    r = firstn (Z.to_nat (lim - n)) full.
Proof.
  intros Hss. induction fuel; intros start idx n lim Hs Hf F Hn; cbn [split_loop].
  - destruct F as [(i & -> & Hi & O & M) | (-> & M)]; [apply occurs_len in O; lia|].
    change (-1 =? -1) with true. cbn iota. rewrite substr_ok by lia. cbn [sbind].
    rewrite <- skipn_length, firstn_all.
    exists [skipn start s], [skipn start s]. split; [apply splits_end; intros i O; apply (M (start + i)%nat); [lia|]|].
    { apply occurs_shift; auto. }
    split; [reflexivity|]. replace (Z.to_nat (lim - n)) with (S (Z.to_nat (lim - n - 1))) by lia.
    cbn [firstn]. rewrite firstn_nil. reflexivity.
  - destruct F as [(i & -> & Hi & O & M) | (-> & M)].
    + rewrite (proj2 (Z.eqb_neq _ _)) by lia. rewrite Nat2Z.id. pose proof (occurs_len _ _ _ O) as Lo.
      rewrite substr_ok by lia. cbn [sbind].
      assert (P : forall full, splits ss (skipn (i + length ss) s) full ->
                  splits ss (skipn start s) (firstn (i - start) (skipn start s) :: full)).
      { intros full Sf. apply splits_next.
        - apply occurs_shift; [lia|]. replace (start + (i - start))%nat with i by lia. exact O.
        - intros j Oj. apply occurs_shift in Oj; [|lia]. specialize (M (start + j)%nat ltac:(lia) Oj). lia.
        - rewrite skipn_skipn'. replace (start + (i - start + length ss))%nat with (i + length ss)%nat by lia. exact Sf. }
      destruct (index_of_spec s ss (i + length ss)) as (r & Er & Fr).
      destruct (IHfuel (i + length ss)%nat r (n + 1) (Z.max lim (n + 2)) ltac:(lia) ltac:(lia) Fr ltac:(lia))
        as (full & r' & Sf & Ef & _).
      destruct (Z.eqb_spec (n + 1) lim) as [El|El].
      * exists (firstn (i - start) (skipn start s) :: full), [firstn (i - start) (skipn start s)].
        split; [apply P, Sf|]. split; [reflexivity|].
        replace (Z.to_nat (lim - n)) with 1%nat by lia. reflexivity.
      * clear full r' Sf Ef. rewrite Er. cbn [sbind].
        destruct (IHfuel (i + length ss)%nat r (n + 1) lim ltac:(lia) ltac:(lia) Fr ltac:(lia))
          as (full & r' & Sf & Ef & Hr). rewrite Ef. cbn [sbind].
        eexists. eexists. split; [apply P, Sf|]. split; [reflexivity|].
        replace (Z.to_nat (lim - n)) with (S (Z.to_nat (lim - (n + 1)))) by lia. cbn [firstn]. rewrite Hr. reflexivity.
    + change (-1 =? -1) with true. cbn iota. rewrite substr_ok by lia. cbn [sbind].
      rewrite <- skipn_length, firstn_all.
      exists [skipn start s], [skipn start s]. split; [apply splits_end; intros i O; apply (M (start + i)%nat); [lia|]|].
      { apply occurs_shift; auto. }
      split; [reflexivity|]. replace (Z.to_nat (lim - n)) with (S (Z.to_nat (lim - n - 1))) by lia.
      cbn [firstn]. rewrite firstn_nil. reflexivity.
Qed.

Theorem js_split_spec s ss lim : 0 < lim -> ss <> [] ->
  exists full, splits ss s full /\ js_split s (Some ss) lim = SOk (firstn (Z.to_nat lim) full).
Proof.
  intros Hl Hss. unfold js_split. rewrite (proj2 (Z.eqb_neq lim 0)) by lia.
  assert (L : (0 < length ss)%nat) by (destruct ss; [congruence|cbn [length]; lia]).
  rewrite (proj2 (Nat.eqb_neq (length ss) 0)) by lia.
  destruct (Nat.eqb_spec (length s) 0) as [E|E].
  - destruct s; [|discriminate]. exists [[]]. split.
    + apply splits_end. intros i O. apply occurs_len in O. cbn [length] in O. lia.
    + replace (Z.to_nat lim) with (S (Z.to_nat (lim - 1))) by lia. cbn [firstn]. rewrite firstn_nil. reflexivity.
  - destruct (index_of_spec s ss 0) as (r & -> & F). cbn [sbind].
    destruct (split_loop_spec s ss L (length s) 0 r 0 lim ltac:(lia) ltac:(lia) F ltac:(lia)) as (full & r' & Sf & -> & ->).
    exists full. split; [exact Sf|]. rewrite Z.sub_0_r. reflexivity.
Qed.

Lemma splits_nonempty sep s l : splits sep s l -> l <> [].
Proof. intros H. inversion H; discriminate. Qed.

Theorem splits_join sep s l : splits sep s l -> join sep l = s.
Proof.
  induction 1 as [s H | s i r O M S IH]; [reflexivity|].
  pose proof (splits_nonempty _ _ _ S). destruct r as [|x r]; [congruence|].
  change (join sep (firstn i s :: x :: r)) with (firstn i s ++ sep ++ join sep (x :: r)). rewrite IH.
  destruct O as (pre & post & -> & <-).
  rewrite firstn_app, Nat.sub_diag, firstn_all. cbn [firstn]. rewrite app_nil_r. f_equal. f_equal.
  rewrite skipn_app. rewrite skipn_all2 by lia. cbn [app].
  replace (length pre + length sep - length pre)%nat with (length sep) by lia.
  rewrite skipn_app, Nat.sub_diag, skipn_all. reflexivity.
Qed.

Lemma splits_det sep s l1 l2 : splits sep s l1 -> splits sep s l2 -> l1 = l2.
Proof.
  intros H. revert l2. induction H as [s H | s i r O M S IH]; intros l2 H2; inversion H2; subst.
  - reflexivity.
  - destruct (H _ H0).
  - destruct (H _ O).
  - assert (i = i0) by (apply Nat.le_antisymm; auto). subst i0. f_equal. apply IH. assumption.
Qed.

(** no piece contains the separator *)
Lemma splits_no_sep sep s l : sep <> [] -> splits sep s l -> forall x, In x l -> forall i, ~ occurs sep x i.
Proof.
  intros Hs. induction 1 as [s H | s i r O M S IH]; intros x Hx j Oj.
  - destruct Hx as [<-|[]]. apply (H j Oj).
  - destruct Hx as [<-|Hx]; [|exact (IH x Hx j Oj)].
    pose proof (occurs_len _ _ _ Oj) as L. rewrite firstn_length in L.
    assert (occurs sep s j).
    { destruct Oj as (pre & post & E & <-). exists pre, (post ++ skipn i s). split; [|reflexivity].
      rewrite <- (firstn_skipn i s) at 1. rewrite E, <- !app_assoc. reflexivity. }
    specialize (M j H). destruct sep; [congruence|]. cbn [length] in L. lia.
Qed.

Lemma split_units_spec s : forall n i, (i + n <= length s)%nat ->
  split_units n s i = SOk (map (fun c => [c]) (firstn n (skipn i s))).
Proof.
  induction n; intros i H; cbn [split_units]; [reflexivity|].
  destruct (nth_error_lt s i ltac:(lia)) as (c & E). rewrite substr_ok by lia.
  rewrite (skipn_S_nth _ _ _ E). replace (S i - i)%nat with 1%nat by lia. cbn [firstn sbind].
  rewrite IHn by lia. reflexivity.
Qed.

Theorem js_split_empty s lim : 0 < lim ->
  js_split s (Some []) lim = SOk (map (fun c => [c]) (firstn (Z.to_nat (Z.min lim (len s))) s)).
Proof.
  intros H. unfold js_split. rewrite (proj2 (Z.eqb_neq lim 0)) by lia. cbn [length Nat.eqb].
  rewrite split_units_spec by (unfold len; lia). reflexivity.
Qed.

(** ** code points *)
Lemma is_leading_spec c : is_leading c = true <-> high c.
Proof. unfold is_leading, high. rewrite andb_true_iff, !Z.leb_le. reflexivity. Qed.
Lemma is_trailing_spec c : is_trailing c = true <-> low c.
Proof. unfold is_trailing, low. rewrite andb_true_iff, !Z.leb_le. reflexivity. Qed.

Lemma lor_low10 a b : 0 <= b < 1024 -> Z.lor (Z.shiftl a 10) b = a * 1024 + b.
Proof.
  intros H. rewrite <- Z.lxor_lor, <- Z.add_nocarry_lxor; rewrite ?Z.shiftl_mul_pow2 by lia; try reflexivity.
  all: rewrite <- Z.shiftl_mul_pow2 by lia; apply Z.bits_inj'; intros k Hk; rewrite Z.land_spec, Z.bits_0.
  all: destruct (Z.lt_ge_cases k 10);
    [rewrite Z.shiftl_spec_low by lia; reflexivity|
     replace (Z.testbit b k) with false; [apply andb_false_r|]; symmetry;
     destruct (Z.eq_dec b 0) as [->|]; [apply Z.bits_0|];
     apply Z.bits_above_log2; [lia|]; apply Z.log2_lt_pow2; [lia|];
     apply Z.lt_le_trans with (2 ^ 10); [lia|apply Z.pow_le_mono_r; lia]].
Qed.

Lemma pair_to_uc_spec h l : high h -> low l -> utf16 (pair_to_uc h l) [h; l].
Proof.
  unfold high, low. intros H L. right. unfold pair_to_uc. rewrite lor_low10 by lia.
  split; [lia|]. exists h, l. unfold high, low. repeat split; try lia.
Qed.

Lemma uc_to_pair_spec c : 0x10000 <= c <= 0x10ffff ->
  utf16 c [fst (uc_to_pair c); snd (uc_to_pair c)].
Proof.
  intros H. right. split; [exact H|]. unfold uc_to_pair. cbn [fst snd].
  rewrite Z.shiftr_div_pow2 by lia. change 0x3ff with (Z.ones 10). rewrite Z.land_ones by lia.
  change (2 ^ 10) with 1024.
  pose proof (Z.div_mod (c - 65536) 1024 ltac:(lia)). pose proof (Z.mod_pos_bound (c - 65536) 1024 ltac:(lia)).
  eexists. eexists. unfold high, low. split; [|split; [|split; [reflexivity|]]]; lia.
Qed.

Lemma append_uc_spec ucb c : 0 <= c <= 0x10ffff -> exists u, utf16 c u /\ append_uc ucb c = ucb ++ u.
Proof.
  intros H. unfold append_uc. destruct (Z.ltb_spec 65535 c).
  - exists [fst (uc_to_pair c); snd (uc_to_pair c)]. split; [apply uc_to_pair_spec; lia|reflexivity].
  - exists [c]. split; [left; split; [lia|reflexivity]|reflexivity].
Qed.

Lemma utf16_fun c u v : utf16 c u -> utf16 c v -> u = v.
Proof.
  unfold utf16, high, low. intros [(H1 & ->) | (H1 & h & l & Hh & Hl & -> & E1)] [(H2 & ->) | (H2 & h' & l' & Hh' & Hl' & -> & E2)];
    try lia; [reflexivity|].
  assert (h = h' /\ l = l') by lia. destruct H; subst. reflexivity.
Qed.

Lemma utf16_inj c d u : utf16 c u -> utf16 d u -> c = d.
Proof.
  unfold utf16. intros [(H1 & ->) | (H1 & h & l & Hh & Hl & -> & E1)] [(H2 & E) | (H2 & h' & l' & Hh' & Hl' & E & E2)];
    try discriminate; injection E; intros; subst; reflexivity.
Qed.

Theorem js_fromCodePoint_spec args :
  match js_fromCodePoint args with
  | SOk s => exists cps us, args = map Some cps /\ Forall2 utf16 cps us /\ s = List.concat us
  | SThrow => exists a, In a args /\ (a = None \/ exists n, a = Some n /\ ~ (0 <= n <= 0x10ffff))
  | SUB => False
  end.
Proof.
  unfold js_fromCodePoint.
  assert (G : forall args ucb, match from_code_points ucb args with
    | SOk s => exists cps us, args = map Some cps /\ Forall2 utf16 cps us /\ s = ucb ++ List.concat us
    | SThrow => exists a, In a args /\ (a = None \/ exists n, a = Some n /\ ~ (0 <= n <= 0x10ffff))
    | SUB => False end).
  { clear args. induction args as [|[n|] args IH]; intros ucb; cbn [from_code_points].
    - exists [], []. split; [reflexivity|]. split; [constructor|]. cbn [List.concat]. symmetry. apply app_nil_r.
    - destruct (Z.ltb_spec n 0); cbn [orb].
      { exists (Some n). split; [left; reflexivity|]. right. exists n. split; [reflexivity|lia]. }
      destruct (Z.ltb_spec 0x10ffff n).
      { exists (Some n). split; [left; reflexivity|]. right. exists n. split; [reflexivity|lia]. }
      destruct (append_uc_spec ucb n ltac:(lia)) as (u & U & ->). specialize (IH (ucb ++ u)).
      destruct (from_code_points (ucb ++ u) args).
      + destruct IH as (cps & us & -> & F & ->). exists (n :: cps), (u :: us).
        split; [reflexivity|]. split; [constructor; assumption|]. cbn [List.concat]. symmetry. apply app_assoc.
      + destruct IH as (a & Ha & K). exists a. split; [right; exact Ha|exact K].
      + exact IH.
    - exists None. split; [left; reflexivity|left; reflexivity]. }
  specialize (G args []). destruct (from_code_points [] args); exact G.
Qed.

Lemma iter_next_spec s pos : (pos < length s)%nat ->
  exists p rest, iter_next s pos = SOk (Some (p, (pos + length p)%nat)) /\ skipn pos s = p ++ rest /\
    (forall r, pieces rest r -> pieces (skipn pos s) (p :: r)) /\ (1 <= length p)%nat /\
    rest = skipn (pos + length p) s /\ (pos + length p <= length s)%nat.
Proof.
  intros H. unfold iter_next. rewrite (proj2 (Nat.leb_gt (length s) pos)) by lia.
  destruct (nth_error_lt s pos H) as (c & E). rewrite E. pose proof (skipn_S_nth _ _ _ E) as K.
  assert (One : forall (X : ~ (high c /\ exists l s', skipn (S pos) s = l :: s' /\ low l)),
    exists p rest, (do sub <- substr s pos (pos + 1); SOk (Some (sub, (pos + 1)%nat))) =
                   SOk (Some (p, (pos + length p)%nat)) /\ skipn pos s = p ++ rest /\
    (forall r, pieces rest r -> pieces (skipn pos s) (p :: r)) /\ (1 <= length p)%nat /\
    rest = skipn (pos + length p) s /\ (pos + length p <= length s)%nat).
  { intros X. exists [c], (skipn (S pos) s). rewrite substr_ok by lia. rewrite K.
    replace (pos + 1 - pos)%nat with 1%nat by lia. cbn [sbind firstn length app].
    split; [reflexivity|]. split; [reflexivity|]. split; [intros r Hr; apply pieces_one; assumption|].
    split; [lia|]. split; [f_equal; lia|lia]. }
  destruct (is_leading c) eqn:L.
  - destruct (Nat.ltb_spec pos (length s - 1)).
    + destruct (nth_error_lt s (S pos) ltac:(lia)) as (d & E2). rewrite E2.
      pose proof (skipn_S_nth _ _ _ E2) as K2.
      destruct (is_trailing d) eqn:T; cbn [sbind].
      * exists [c; d], (skipn (S (S pos)) s). rewrite substr_ok by lia. rewrite K, K2.
        replace (pos + 2 - pos)%nat with 2%nat by lia. cbn [sbind firstn length app].
        split; [reflexivity|]. split; [reflexivity|].
        split; [intros r Hr; apply pieces_pair; [apply is_leading_spec, L|apply is_trailing_spec, T|exact Hr]|].
        split; [lia|]. split; [f_equal; lia|lia].
      * apply One. intros (_ & l & s' & El & Lo). rewrite K2 in El. injection El as <- _.
        apply is_trailing_spec in Lo. congruence.
    + cbn [sbind]. apply One. intros (_ & l & s' & El & _). rewrite skipn_all2 in El by lia. discriminate.
  - cbn [sbind]. apply One. intros (Hh & _). apply is_leading_spec in Hh. congruence.
Qed.

Lemma iter_all_spec s : forall fuel pos, (pos <= length s)%nat -> (length s - pos < fuel)%nat ->
  exists r, iter_all fuel s pos = SOk r /\ pieces (skipn pos s) r.
Proof.
  induction fuel; intros pos Hp Hf; [lia|]. cbn [iter_all].
  destruct (Nat.lt_ge_cases pos (length s)) as [Lt|Ge].
  - destruct (iter_next_spec s pos Lt) as (p & rest & -> & Sp & P & Lp & Er & Le). cbn [sbind].
    destruct (IHfuel (pos + length p)%nat Le ltac:(lia)) as (r & -> & Pr). cbn [sbind].
    eexists. split; [reflexivity|]. apply P. rewrite Er. exact Pr.
  - unfold iter_next. rewrite (proj2 (Nat.leb_le (length s) pos)) by lia. cbn [sbind].
    exists []. split; [reflexivity|]. rewrite skipn_all2 by lia. constructor.
Qed.

Theorem js_iterate_spec s : exists r, js_iterate s = SOk r /\ pieces s r.
Proof. apply (iter_all_spec s (S (length s)) 0); lia. Qed.

Lemma pieces_concat s r : pieces s r -> List.concat r = s.
Proof. induction 1; cbn [List.concat app]; congruence. Qed.

Lemma pieces_det s r1 r2 : pieces s r1 -> pieces s r2 -> r1 = r2.
Proof.
  intros H. revert r2. induction H as [| h l s r Hh Hl P IH | c s r N P IH]; intros r2 H2; inversion H2; subst.
  - reflexivity.
  - f_equal. apply IH. assumption.
  - exfalso. apply H1. split; [exact Hh|]. eauto.
  - exfalso. apply N. split; [assumption|]. eauto.
  - f_equal. apply IH. assumption.
Qed.

Theorem get_uc_spec s i : (i < length s)%nat -> Forall (fun c => 0 <= c <= 0xffff) s ->
  exists c p rest, get_uc s i = SOk c /\ utf16 c p /\ skipn i s = p ++ rest /\
    forall r, pieces (skipn i s) r -> exists t, r = p :: t.
Proof.
  intros H U. unfold get_uc. destruct (nth_error_lt s i H) as (c & E). rewrite E.
  pose proof (skipn_S_nth _ _ _ E) as K.
  assert (Rc : 0 <= c <= 0xffff) by (rewrite Forall_forall in U; apply U; eapply nth_error_In; eauto).
  assert (One : ~ (high c /\ exists l s', skipn (S i) s = l :: s' /\ low l) ->
     exists c0 p rest, SOk c = SOk c0 /\ utf16 c0 p /\ skipn i s = p ++ rest /\
       forall r, pieces (skipn i s) r -> exists t, r = p :: t).
  { intros X. exists c, [c], (skipn (S i) s). split; [reflexivity|]. split; [left; split; [exact Rc|reflexivity]|].
    split; [rewrite K; reflexivity|]. intros r Hr. rewrite K in Hr. inversion Hr; subst; [|eauto].
    exfalso. apply X. split; [assumption|]. eauto. }
  destruct (is_leading c) eqn:L; cbn [negb orb].
  - destruct (Nat.eqb_spec i (length s - 1)) as [El|El].
    + apply One. intros (_ & l & s' & Q & _). rewrite skipn_all2 in Q by lia. discriminate.
    + destruct (nth_error_lt s (S i) ltac:(lia)) as (d & E2). rewrite E2. pose proof (skipn_S_nth _ _ _ E2) as K2.
      destruct (is_trailing d) eqn:T.
      * apply is_leading_spec in L. apply is_trailing_spec in T.
        exists (pair_to_uc c d), [c; d], (skipn (S (S i)) s). split; [reflexivity|].
        split; [apply pair_to_uc_spec; assumption|]. split; [rewrite K, K2; reflexivity|].
        intros r Hr. rewrite K, K2 in Hr. inversion Hr; subst; [eauto|].
        exfalso. apply H2. split; [exact L|]. eauto.
      * apply One. intros (_ & l & s' & Q & Lo). rewrite K2 in Q. injection Q as <- _.
        apply is_trailing_spec in Lo. congruence.
  - apply One. intros (Hh & _). apply is_leading_spec in Hh. congruence.
Qed.
