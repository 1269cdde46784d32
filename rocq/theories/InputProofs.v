(** The input goes back exactly over what it read. *)
From Coq Require Import List ZArith Bool Lia.
From Verif Require Import StrModel JsonModel InputModel InputSpec JsonLexProofs.
Import ListNotations.
Local Open Scope Z_scope.

Lemma decoded_units crlf s l : decoded crlf s l -> List.concat (map snd l) = s.
Proof. induction 1; cbn; congruence. Qed.

Lemma decoded_total crlf : forall n s, (List.length s <= n)%nat -> Forall (fun c => 0 <= c <= 0xffff) s -> exists l, decoded crlf s l.
Proof.
  induction n; intros s L F.
  - destruct s; [exists []; constructor|cbn in L; lia].
  - destruct s as [|c r]; [exists []; constructor|]. inversion F; subst. cbn [List.length] in L.
    destruct (IHn r ltac:(lia) H2) as (l & D).
    assert (ST : forall P : Z -> Prop, (forall x, {P x} + {~ P x}) -> starts P r \/ ~ starts P r).
    { intros P dec. destruct r as [|x r']; [right; intros (a & b & E & _); discriminate|].
      destruct (dec x); [left; exists x, r'; auto|right; intros (a & b & E & K); inversion E; subst; auto]. }
    assert (DL : forall x, {low x} + {~ low x}).
    { intros x. unfold low. destruct (Z_le_dec 0xdc00 x); [destruct (Z_le_dec x 0xdfff); [left|right]|right]; lia. }
    assert (DH : {high c} + {~ high c}).
    { unfold high. destruct (Z_le_dec 0xd800 c); [destruct (Z_le_dec c 0xdbff); [left|right]|right]; lia. }
    destruct DH as [Hc|Hc].
    + destruct (ST low DL) as [(t & r' & -> & Ht)|N].
      * inversion H2; subst. destruct (IHn r' ltac:(cbn in *; lia) H4) as (l' & D').
        eexists. apply D_pair; eauto.
      * eexists. apply D_one; eauto; unfold high in *; [tauto|lia].
    + destruct crlf.
      * destruct (Z.eq_dec c 13) as [->|NC].
        -- destruct (ST (fun x => x = 10) (fun x => Z.eq_dec x 10)) as [(t & r' & -> & ->)|N].
           ++ inversion H2; subst. destruct (IHn r' ltac:(cbn in *; lia) H4) as (l' & D'). eexists. apply D_crlf; eauto.
           ++ eexists. apply D_cr; eauto.
        -- eexists. apply D_one; eauto; tauto.
      * eexists. apply D_one; eauto; [tauto|]. intros [E _]; discriminate.
Qed.

Lemma decoded_skip crlf : forall n s l, decoded crlf s l -> decoded crlf (skipn (offset l n) s) (skipn n l).
Proof.
  induction n; intros s l D; [exact D|].
  inversion D; subst; cbn [skipn]; try (cbn; constructor; fail); unfold offset; cbn [firstn map List.concat snd app List.length skipn]; apply IHn; assumption.
Qed.

Lemma offset_le crlf s l n : decoded crlf s l -> (offset l n <= List.length s)%nat.
Proof.
  intros D. rewrite <- (decoded_units _ _ _ D). unfold offset. rewrite <- (firstn_skipn n l) at 2.
  rewrite map_app, concat_app, app_length. lia.
Qed.

Lemma offset_S l n c u : nth_error l n = Some (c, u) -> offset l (S n) = (offset l n + List.length u)%nat.
Proof.
  unfold offset. revert l. induction n; intros [|[c' u'] l] H; try discriminate.
  - cbn in H. inversion H; subst. cbn. rewrite app_nil_r. reflexivity.
  - specialize (IHn l H). cbn [firstn map List.concat snd] in *. rewrite !app_length. rewrite IHn. lia.
Qed.

Lemma nth_skip {A} (s : list A) k j : nth_error s (k + j) = nth_error (skipn k s) j.
Proof. revert s; induction k; intros [|x s]; cbn; auto. destruct j; reflexivity. Qed.

Lemma nth_skip_head {A} (l : list A) n x : nth_error l n = Some x -> exists r, skipn n l = x :: r /\ r = skipn (S n) l.
Proof. revert l; induction n; intros [|y l] H; try discriminate; cbn in *; [inversion H; subst; eauto|apply IHn; assumption]. Qed.

Lemma pair_value h t : high h -> low t -> pair_to_uc h t = 0x10000 + 1024 * (h - 0xd800) + (t - 0xdc00).
Proof.
  unfold high, low, pair_to_uc. intros. rewrite UriProofs.lor_add by (change (2 ^ 10) with 1024; lia). change (2 ^ 10) with 1024. lia.
Qed.

Lemma last_dec {A} (l : list A) : l = [] \/ exists a b, l = a ++ [b].
Proof. destruct l as [|x l]; [left; reflexivity|right]. destruct (exists_last (l := x :: l)) as (a & b & E); [discriminate|eauto]. Qed.

Section Run.
Variables (s : str) (crlf : bool) (l : list (Z * list Z)).
Hypothesis D : decoded crlf s l.

Definition fresh_col (i : input) : Z * Z := if newline i then (line i + 1, 0) else (line i, column i).

Lemma get_step i n c u : pos i = offset l n -> nth_error l n = Some (c, u) ->
  get_uc s crlf i = IOk (c, Input (offset l (S n)) (fst (fresh_col i)) (snd (fresh_col i) + 1) (is_line_terminator c)) /\ 0 <= c.
Proof.
  intros P N. rewrite (offset_S _ _ _ _ N).
  pose proof (decoded_skip _ n _ _ D) as DS. destruct (nth_skip_head _ _ _ N) as (r & E & _). rewrite E in DS.
  assert (LT : (offset l n < List.length s)%nat).
  { pose proof (offset_le _ _ _ (S n) D). rewrite (offset_S _ _ _ _ N) in H.
    assert (u <> []) by (inversion DS; discriminate). destruct u; [congruence|cbn in H; lia]. }
  assert (A0 : nth_error s (offset l n) = nth_error (skipn (offset l n) s) 0) by (rewrite <- nth_skip, Nat.add_0_r; reflexivity).
  unfold get_uc, at_. rewrite P, A0. clear A0.
  replace (S (offset l n)) with (offset l n + 1)%nat by lia.
  destruct (Nat.leb_spec (List.length s) (offset l n)); [lia|].
  assert (LN : List.length (skipn (offset l n) s) = (List.length s - offset l n)%nat) by apply skipn_length.
  change (if newline i then (line i + 1, 0) else (line i, column i)) with (fresh_col i).
  destruct (fresh_col i) as [ln col]. cbn [fst snd].
  inversion DS; try subst u; try subst r; match goal with X : _ = skipn _ s |- _ => rename X into SK end; rewrite <- SK in LN; try rewrite <- SK; cbn [nth_error ibind List.length] in *.
  - destruct (Nat.ltb_spec (offset l n + 1) (List.length s)); [|lia].
    rewrite (proj2 (leading_range h)) by assumption. cbn [andb ibind]. rewrite nth_skip, <- SK. cbn [nth_error ibind].
    rewrite (proj2 (trailing_range t)) by assumption. cbn [ibind]. rewrite pair_value by assumption.
    match goal with X : c = _ |- _ => rewrite <- X end.
    unfold high, low in *. destruct (Z.leb_spec 0 c); [|lia].
    split; [|lia]. do 3 f_equal. lia.
  - match goal with X : 10 = c |- _ => subst c end. match goal with X : crlf = true |- _ => rewrite X end.
    rewrite is_leading_false by lia. cbn [andb ibind]. rewrite Z.eqb_refl. cbn [andb].
    destruct (Nat.ltb_spec (offset l n + 1) (List.length s)); [|lia].
    rewrite nth_skip, <- SK. cbn [nth_error ibind]. rewrite Z.eqb_refl. cbn. split; [|lia]. do 3 f_equal; lia.
  - match goal with X : 10 = c |- _ => subst c end. match goal with X : crlf = true |- _ => rewrite X end.
    rewrite is_leading_false by lia. cbn [andb ibind]. rewrite Z.eqb_refl. cbn [andb].
    destruct (Nat.ltb_spec (offset l n + 1) (List.length s)).
    + rewrite nth_skip, <- SK. cbn [nth_error].
      match goal with K : ~ starts _ ?r |- _ => destruct r as [|x r'] end; [cbn in LN; lia|]. cbn [nth_error ibind].
      destruct (Z.eqb_spec x 10); [exfalso; match goal with K : ~ starts _ _ |- _ => apply K; exists x, r'; auto end|].
      cbn. split; [|lia]. do 3 f_equal; lia.
    + cbn [ibind]. cbn. split; [|lia]. do 3 f_equal; lia.
  - try (match goal with X : ?x = c |- _ => subst x end).
    assert (PN : (if is_leading c && (offset l n + 1 <? List.length s)%nat
        then ibind match nth_error s (offset l n + 1) with Some c0 => IOk c0 | None => IUB end (fun c1 => IOk (if is_trailing c1 then Some c1 else None))
        else IOk None) = IOk None).
    { destruct (is_leading c) eqn:EL; [|reflexivity]. destruct (Nat.ltb_spec (offset l n + 1) (List.length s)); [|reflexivity].
      cbn [andb]. rewrite nth_skip, <- SK. cbn [nth_error]. apply leading_range in EL.
      match goal with K : ~ (high c /\ starts low ?r) |- _ => destruct r as [|x r']; [cbn in LN; lia|]; cbn [nth_error ibind]; destruct (is_trailing x) eqn:ET; [|reflexivity];
        exfalso; apply K; split; [exact EL|]; exists x, r'; split; [reflexivity|]; apply trailing_range; exact ET end. }
    rewrite PN. cbn [ibind].
    assert (CR : crlf && (c =? 13) = false).
    { destruct (Z.eqb_spec c 13); [|apply andb_false_r]. destruct crlf eqn:EC; [|reflexivity]. exfalso. match goal with K : ~ (_ /\ c = 13) |- _ => apply K; auto end. }
    rewrite CR. cbn [ibind]. destruct (Z.leb_spec 0 c); [|lia]. split; [reflexivity|lia].
Qed.

Lemma get_end i n : pos i = offset l n -> nth_error l n = None ->
  get_uc s crlf i = IOk (-1, Input (pos i) (fst (fresh_col i)) (snd (fresh_col i)) false).
Proof.
  intros P N. apply nth_error_None in N.
  assert (E : offset l n = List.length s).
  { unfold offset. rewrite firstn_all2 by assumption. rewrite (decoded_units _ _ _ D). reflexivity. }
  unfold get_uc. rewrite P, E. rewrite Nat.leb_refl.
  change (if newline i then (line i + 1, 0) else (line i, column i)) with (fresh_col i).
  destruct (fresh_col i). reflexivity.
Qed.

(** around a boundary there is no pair *)
Lemma boundary : forall s0 l0, decoded crlf s0 l0 -> forall n j x y, offset l0 n = S j ->
  nth_error s0 j = Some x -> nth_error s0 (S j) = Some y -> ~ (high x /\ low y) /\ ~ (crlf = true /\ x = 13 /\ y = 10).
Proof.
  induction 1 as [|h t c r l0 Hh Ht _ D0 IH|r l0 C D0 IH|r l0 C N D0 IH|c r l0 R NP NC D0 IH]; intros n j x y O X Y.
  - destruct j; discriminate.
  - destruct n; [discriminate|]. unfold offset in O. cbn [firstn map List.concat snd app List.length] in O. fold (offset l0 n) in O.
    destruct j as [|j]; [lia|]. destruct j as [|j].
    + cbn in X. inversion X; subst. unfold high, low in *. lia.
    + apply (IH n j); auto; unfold offset in *; lia.
  - destruct n; [discriminate|]. unfold offset in O. cbn [firstn map List.concat snd app List.length] in O. fold (offset l0 n) in O.
    destruct j as [|j]; [lia|]. destruct j as [|j].
    + cbn in X. inversion X; subst. unfold high, low in *. lia.
    + apply (IH n j); auto; unfold offset in *; lia.
  - destruct n; [discriminate|]. unfold offset in O. cbn [firstn map List.concat snd app List.length] in O. fold (offset l0 n) in O.
    destruct j as [|j].
    + cbn in X. inversion X; subst. split; [unfold high; lia|]. intros (_ & _ & ->). apply N. destruct r; [discriminate|]. cbn in Y. inversion Y; subst. exists 10, r. auto.
    + apply (IH n j); auto; unfold offset in *; lia.
  - destruct n; [discriminate|]. unfold offset in O. cbn [firstn map List.concat snd app List.length] in O. fold (offset l0 n) in O.
    destruct j as [|j].
    + cbn in X. inversion X; subst. split.
      * intros [Hx Hy]. apply NP. split; [assumption|]. destruct r; [discriminate|]. cbn in Y. inversion Y; subst. exists y, r. auto.
      * intros (A & B & _). auto.
    + apply (IH n j); auto; unfold offset in *; lia.
Qed.

Lemma unget_step i n c u c' : pos i = offset l (S n) -> nth_error l n = Some (c, u) -> 0 <= c' ->
  unget_uc s crlf i c' = IOk (Input (offset l n) (line i) (column i - 1) false).
Proof.
  intros P N C. unfold unget_uc. destruct (Z.leb_spec 0 c'); [|lia].
  pose proof (offset_S _ _ _ _ N) as OS.
  pose proof (decoded_skip _ n _ _ D) as DS. destruct (nth_skip_head _ _ _ N) as (r & E & _). rewrite E in DS.
  pose proof (offset_le _ _ _ (S n) D) as LE.
  assert (U : forall j, (j < List.length u)%nat -> nth_error s (offset l n + j) = nth_error u j).
  { intros j J. rewrite nth_skip. pose proof (decoded_units _ _ _ DS) as DU. cbn [map List.concat snd] in DU. rewrite <- DU.
    rewrite nth_error_app1 by assumption. reflexivity. }
  rewrite P.
  assert (W : (u = [c] \/ u = [13]) \/ (exists h t, u = [h; t] /\ high h /\ low t) \/ (crlf = true /\ u = [13; 10])).
  { inversion DS; subst; eauto 10. }
  destruct W as [W|[(h & t & -> & Hh & Ht)|(Cf & ->)]].
  - assert (LU : List.length u = 1%nat) by (destruct W; subst; reflexivity).
    rewrite LU in *. rewrite OS. destruct (Nat.leb_spec 2 (offset l n + 1)) as [G|G].
    + destruct (offset l n) as [|j] eqn:O; [lia|].
      replace (S j + 1 - 1)%nat with (S j) by lia. replace (S j + 1 - 2)%nat with j by lia.
      unfold at_. destruct (nth_error s (S j)) as [y|] eqn:Y; [|apply nth_error_None in Y; lia]. cbn [ibind].
      destruct (nth_error s j) as [x|] eqn:X; [|apply nth_error_None in X; lia]. cbn [ibind].
      destruct (boundary _ _ D n j x y O X Y) as [B1 B2].
      destruct (is_trailing y && is_leading x) eqn:E1.
      * exfalso. apply andb_prop in E1. destruct E1 as [A B]. apply trailing_range in A. apply leading_range in B. apply B1. split; assumption.
      * destruct (crlf && ((y =? 10) && (x =? 13))) eqn:E2; [|reflexivity].
        exfalso. apply andb_prop in E2. destruct E2 as [A B]. apply andb_prop in B. destruct B as [B1' B2'].
        apply Z.eqb_eq in B1', B2'. apply B2. auto.
    + replace (offset l n + 1)%nat with (S (offset l n)) by lia. reflexivity.
  - cbn [List.length] in *. rewrite OS. destruct (Nat.leb_spec 2 (offset l n + 2)); [|lia].
    replace (offset l n + 2 - 1)%nat with (offset l n + 1)%nat by lia. replace (offset l n + 2 - 2)%nat with (offset l n + 0)%nat by lia.
    unfold at_. rewrite !U by lia. cbn [nth_error ibind].
    rewrite (proj2 (trailing_range t)) by assumption. rewrite (proj2 (leading_range h)) by assumption. cbn. rewrite Nat.add_0_r. reflexivity.
  - cbn [List.length] in *. rewrite OS. destruct (Nat.leb_spec 2 (offset l n + 2)); [|lia].
    replace (offset l n + 2 - 1)%nat with (offset l n + 1)%nat by lia. replace (offset l n + 2 - 2)%nat with (offset l n + 0)%nat by lia.
    unfold at_. rewrite !U by lia. cbn [nth_error ibind]. rewrite Cf. cbn. rewrite Nat.add_0_r. reflexivity.
Qed.

Lemma run_steps : forall ops n h n' h', steps l n h ops n' h' -> (n <= List.length l)%nat ->
  forall i, pos i = offset l n -> exists i', run s crlf ops i h = IOk (i', h') /\ pos i' = offset l n'.
Proof.
  induction 1 as [n h|n h c u ops n' h' N _ IH|n h ops n' h' N _ IH|n h c ops n' h' C _ IH|n h ops n' h' _ IH]; intros LE i P; cbn [run].
  - eauto.
  - destruct (get_step i n c u P N) as [G _]. rewrite G. cbn [ibind fst snd]. apply IH; [|reflexivity].
    assert (n < List.length l)%nat by (apply nth_error_Some; congruence). lia.
  - rewrite (get_end i n P N). cbn [ibind fst snd]. apply IH; [assumption|exact P].
  - destruct (nth_error l n) as [[c0 u]|] eqn:N; [|apply nth_error_None in N; lia].
    rewrite (unget_step i n c0 u c P N C). cbn [ibind]. apply IH; [lia|reflexivity].
  - cbn. apply IH; assumption.
Qed.

(** reading again after a push-back *)
Lemma reread i n c i1 i2 : pos i = offset l n -> get_uc s crlf i = IOk (c, i1) -> unget_uc s crlf i1 c = IOk i2 ->
  0 <= c -> get_uc s crlf i2 = IOk (c, i1).
Proof.
  intros P G U C. destruct (nth_error l n) as [[c0 u]|] eqn:N.
  - destruct (get_step i n c0 u P N) as [G' _]. rewrite G' in G. inversion G; subst.
    rewrite (unget_step _ n c u) in U by (auto; reflexivity). inversion U; subst.
    destruct (get_step (Input (offset l n) (fst (fresh_col i)) (snd (fresh_col i) + 1 - 1) false) n c u eq_refl N) as [G2 _].
    cbn [line column] in *. rewrite G2. unfold fresh_col. cbn [newline fst snd line column]. do 4 f_equal. lia.
  - rewrite (get_end i n P N) in G. inversion G; subst. lia.
Qed.

Lemma terminator_spec c : is_line_terminator c = true <-> terminator c.
Proof. unfold is_line_terminator, terminator. rewrite !orb_true_iff, !Z.eqb_eq. tauto. Qed.

Lemma run_located : forall n, (n <= List.length l)%nat ->
  exists i, run s crlf (repeat true n) input_init [] = IOk (i, rev (map fst (firstn n l))) /\ pos i = offset l n /\
    located (map fst (firstn n l)) (line i) (column i) /\
    (newline i = true <-> exists a b, map fst (firstn n l) = a ++ [b] /\ terminator b).
Proof.
  assert (RS : forall a b i h, run s crlf (a ++ b) i h = ibind (run s crlf a i h) (fun p => run s crlf b (fst p) (snd p))).
  { induction a as [|[] a IH]; intros b i h; cbn [app run]; [reflexivity| |].
    - destruct (get_uc s crlf i); cbn [ibind]; [apply IH|reflexivity].
    - destruct h; [reflexivity|]. destruct (unget_uc s crlf i z); cbn [ibind]; [apply IH|reflexivity]. }
  induction n; intros LE.
  - exists input_init. cbn. repeat split; try constructor; try discriminate. intros (a & b & E & _). destruct a; discriminate.
  - destruct IHn as (i & R & P & L & NL); [lia|].
    destruct (nth_error l n) as [[c u]|] eqn:N; [|apply nth_error_None in N; lia].
    destruct (get_step i n c u P N) as [G C].
    assert (FN : firstn (S n) l = firstn n l ++ [(c, u)]).
    { clear - N. revert l N. induction n; intros [|x l] N; try discriminate; cbn in *; [inversion N; reflexivity|]. f_equal. apply IHn. assumption. }
    replace (repeat true (S n)) with (repeat true n ++ [true]) by (rewrite <- repeat_cons; reflexivity).
    rewrite RS, R. cbn [ibind fst snd run]. rewrite G. cbn [ibind fst snd]. eexists. split; [|split; [|split]].
    + rewrite FN, map_app, rev_app_distr. reflexivity.
    + reflexivity.
    + rewrite FN, map_app. cbn [map fst line column]. unfold fresh_col. destruct (newline i) eqn:NW.
      * destruct (proj1 NL eq_refl) as (a & b & E & T). rewrite E in *. cbn [fst snd]. rewrite <- app_assoc. cbn [Z.add]. eapply L_next; eassumption.
      * cbn [fst snd]. apply L_same; [exact L|].
        destruct (last_dec (map fst (firstn n l))) as [E|(a & b & E)]; [left; exact E|right].
        exists a, b. split; [exact E|]. intros T. discriminate (proj2 NL (ex_intro _ a (ex_intro _ b (conj E T)))).
    + cbn [newline]. rewrite terminator_spec, FN, map_app. cbn [map fst]. split.
      * intros T. eauto.
      * intros (a & b & E & T). apply app_inj_tail in E. destruct E as [_ ->]. exact T.
Qed.
End Run.

(** the list view used by JsonModel *)
Lemma get_list s i : (pos i <= List.length s)%nat ->
  exists c i', get_uc s true i = IOk (c, i') /\ get (skipn (pos i) s) = (c, skipn (pos i') s) /\ (pos i' <= List.length s)%nat.
Proof.
  intros LE. set (k := pos i) in *.
  pose proof (skipn_length k s) as LN.
  assert (N0 : forall j, nth_error s (k + j) = nth_error (skipn k s) j) by (intros; apply nth_skip).
  assert (SS : forall j, skipn (k + j) s = skipn j (skipn k s)).
  { intros j. clear. revert s. induction k; intros [|x s]; cbn; auto. destruct j; reflexivity. }
  pose proof (N0 0%nat) as A0. pose proof (N0 1%nat) as A1. rewrite Nat.add_0_r in A0.
  replace (k + 1)%nat with (S k) in A1 by lia.
  pose proof (SS 1%nat) as B1. pose proof (SS 2%nat) as B2.
  replace (k + 1)%nat with (S k) in B1 by lia. replace (k + 2)%nat with (S (S k)) in B2 by lia.
  unfold get_uc, at_. fold k. destruct (if newline i then (line i + 1, 0) else (line i, column i)) as [ln col].
  destruct (Nat.leb_spec (List.length s) k) as [G|G].
  - cbn [ibind]. destruct (skipn k s) eqn:E; [|cbn in LN; lia]. eexists _, _. split; [reflexivity|]. cbn [pos get]. rewrite E. auto.
  - rewrite A0, A1. destruct (skipn k s) as [|c r] eqn:E; [cbn in LN; lia|]. cbn [nth_error ibind List.length] in *. cbn [get].
    assert (FIN : forall c' p, (p <= List.length s)%nat -> exists c0 i', (if 0 <=? c' then IOk (c', Input p ln (col + 1) (is_line_terminator c')) else IOk (c', Input p ln col false)) = IOk (c0, i') /\ (c', skipn p s) = (c0, skipn (pos i') s) /\ (pos i' <= List.length s)%nat).
    { intros c' p L. destruct (0 <=? c'); eexists _, _; (split; [reflexivity|]); auto. }
    destruct r as [|d r]; cbn [List.length nth_error skipn] in *.
    + destruct (Nat.ltb_spec (S k) (List.length s)); [lia|]. rewrite andb_false_r. cbn [ibind]. rewrite <- B1.
      destruct (is_leading c) eqn:EL.
      * destruct (Z.eqb_spec c 13); [apply leading_range in EL; lia|]. cbn [andb ibind]. apply FIN. lia.
      * destruct (Z.eqb_spec c 13); cbn [andb ibind]; apply FIN; lia.
    + destruct (Nat.ltb_spec (S k) (List.length s)); [|lia]. rewrite andb_true_r.
      destruct (is_leading c) eqn:EL; cbn [ibind].
      * destruct (is_trailing d); cbn [ibind]; rewrite <- ?B1, <- ?B2; [apply FIN; lia|].
        destruct (Z.eqb_spec c 13); [apply leading_range in EL; lia|]. cbn [andb ibind]. apply FIN. lia.
      * destruct (Z.eqb_spec c 13); cbn [andb ibind].
        -- destruct (d =? 10); rewrite <- ?B1, <- ?B2; apply FIN; lia.
        -- rewrite <- B1. apply FIN; lia.
Qed.
