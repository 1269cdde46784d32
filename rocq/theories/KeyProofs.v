(** Proofs about property keys. *)
From Coq Require Import List ZArith Bool Lia Arith.
Import ListNotations.
From Verif Require Import StrModel StrSpec StrProofs KeyModel KeySpec.
Local Open Scope Z_scope.

Notation blank := (fun c => is_white_space c = true).

Lemma is_digit_spec c : is_digit c = true <-> digit c.
Proof. unfold is_digit, digit. rewrite andb_true_iff, !Z.leb_le. reflexivity. Qed.

Lemma digit_not_blank c : digit c -> is_white_space c = false.
Proof.
  intros H. destruct (is_white_space c) eqn:E; [|reflexivity]. apply white_space_spec in E. unfold digit in H.
  unfold es_space in E. cbn [In] in E. lia.
Qed.

Lemma skip_ws_spec s : exists pre, s = pre ++ skip_ws s /\ Forall blank pre /\
  match skip_ws s with c :: _ => is_white_space c = false | [] => True end.
Proof.
  induction s as [|c s (pre & E & F & H)]; cbn [skip_ws].
  - exists []. auto.
  - destruct (is_white_space c) eqn:W.
    + exists (c :: pre). cbn [app]. split; [congruence|]. split; [constructor; assumption|exact H].
    + exists []. auto.
Qed.

Lemma value_mono ds : Forall digit ds -> forall n, 0 <= n -> n <= value_from n ds.
Proof.
  induction 1 as [|c ds D F IH]; intros n Hn; cbn [value_from]; [lia|]. unfold digit in D.
  specialize (IH (10 * n + (c - 48)) ltac:(lia)). lia.
Qed.

Lemma value_app a : forall b n, value_from n (a ++ b) = value_from (value_from n a) b.
Proof. induction a; intros; cbn [app value_from]; auto. Qed.

Lemma read_digits_spec s : forall n, 0 <= n <= 0xfffffffe ->
  match read_digits s n with
  | Some (m, rest) => exists ds, s = ds ++ rest /\ Forall digit ds /\ m = value_from n ds /\ m <= 0xfffffffe /\
                      match rest with c :: _ => is_digit c = false | [] => True end
  | None => exists ds rest, s = ds ++ rest /\ Forall digit ds /\ 0xfffffffe < value_from n ds
  end.
Proof.
  induction s as [|c s IH]; intros n Hn; cbn [read_digits].
  - exists []. repeat split; auto. cbn [value_from]. lia.
  - destruct (is_digit c) eqn:D.
    + pose proof D as D'. apply is_digit_spec in D'. pose proof D' as D''. unfold digit in D''.
      replace (n * 10 + (c - 48)) with (10 * n + (c - 48)) by lia.
      destruct (Z.ltb_spec 0xfffffffe (10 * n + (c - 48))).
      * exists [c], s. split; [reflexivity|]. split; [constructor; auto|]. cbn [value_from]. assumption.
      * specialize (IH (10 * n + (c - 48)) ltac:(lia)). destruct (read_digits s (10 * n + (c - 48))) as [(m, rest)|].
        -- destruct IH as (ds & -> & F & E & L & R). exists (c :: ds). repeat split; auto.
        -- destruct IH as (ds & rest & -> & F & L). exists (c :: ds), rest. repeat split; auto.
    + exists []. repeat split; auto. cbn [value_from]. lia.
Qed.

Lemma split_first (P : Z -> Prop) (a : list Z) : forall b c d, a ++ b = c ++ d ->
  Forall P a -> Forall P c ->
  match b with x :: _ => ~ P x | [] => True end -> match d with x :: _ => ~ P x | [] => True end ->
  a = c /\ b = d.
Proof.
  induction a as [|x a IH]; intros b c d E Fa Fc Hb Hd.
  - destruct c as [|y c]; [auto|]. cbn [app] in E. subst b. inversion Fc; contradiction.
  - destruct c as [|y c]; cbn [app] in E.
    + subst d. inversion Fa; contradiction.
    + injection E as <- E. inversion Fa; inversion Fc; subst. destruct (IH b c d E) as (-> & ->); auto.
Qed.

(** the parser accepts exactly the loose indices *)
Theorem parse_index_spec s n : parse_index s = Some n <-> loose_index blank s n.
Proof.
  unfold parse_index. destruct (skip_ws_spec s) as (pre & E & F & H).
  split.
  - destruct (skip_ws s) as [|c t] eqn:K; [discriminate|].
    destruct (is_digit c) eqn:D; [|discriminate]. cbn [negb].
    pose proof (read_digits_spec (c :: t) 0 ltac:(lia)) as R.
    destruct (read_digits (c :: t) 0) as [(m, rest)|]; [|discriminate].
    destruct R as (ds & E2 & Fd & -> & L & R).
    destruct (skip_ws_spec rest) as (post & E3 & F3 & _).
    destruct (skip_ws rest); [|discriminate]. rewrite app_nil_r in E3. subst post.
    intros X. injection X as <-. exists pre, ds, rest. rewrite <- E2. split; [exact E|].
    split; [exact F|]. split; [exact F3|].
    split; [|split; [exact Fd|split; [reflexivity|exact L]]].
    intros ->. cbn [app] in E2. subst rest. rewrite D in R. discriminate.
  - intros (pre' & ds & post & E' & F1 & F2 & N & Fd & V & L).
    destruct ds as [|d ds]; [congruence|]. pose proof (Forall_inv Fd) as Hd.
    assert (Q : pre = pre' /\ skip_ws s = (d :: ds) ++ post).
    { apply (split_first blank); auto.
      - rewrite <- E. exact E'.
      - destruct (skip_ws s); [exact I|]. rewrite H. discriminate.
      - cbn [app]. rewrite digit_not_blank by assumption. discriminate. }
    destruct Q as (_ & ->). cbn [app]. rewrite (proj2 (is_digit_spec d) Hd). cbn [negb].
    pose proof (read_digits_spec (d :: ds ++ post) 0 ltac:(lia)) as R.
    assert (Bp : match post with x :: _ => ~ digit x | [] => True end).
    { destruct post as [|x post]; [exact I|]. inversion F2 as [|? ? W]. subst. intros Dx.
      apply digit_not_blank in Dx. congruence. }
    destruct (read_digits (d :: ds ++ post) 0) as [(m, rest)|].
    + destruct R as (ds' & E2 & Fd' & -> & L' & R).
      assert (Q : d :: ds = ds' /\ post = rest).
      { apply (split_first digit); auto.
        destruct rest; [exact I|]. rewrite <- is_digit_spec, R. discriminate. }
      destruct Q as (<- & <-). rewrite V.
      assert (K : skip_ws post = []).
      { clear -F2. induction post as [|x post IH]; [reflexivity|]. inversion F2; subst. cbn [skip_ws].
        rewrite H1. auto. }
      rewrite K. reflexivity.
    + destruct R as (ds' & rest & E2 & Fd' & L').
      exfalso. (* ds' is a prefix of d :: ds *)
      change (d :: ds ++ post) with ((d :: ds) ++ post) in E2.
      destruct (app_split2 _ _ _ _ E2) as [(m & Em & Er) | (m & Em & Er)].
      * destruct m as [|x m].
        -- rewrite app_nil_r in Em. subst ds'. lia.
        -- rewrite Er in Bp. cbn [app] in Bp. apply Bp. rewrite Em in Fd'. apply Forall_app in Fd'.
           destruct Fd' as (_ & G). inversion G; assumption.
      * rewrite Em, value_app in V. rewrite Em in Fd. apply Forall_app in Fd. destruct Fd as (G1 & G2).
        pose proof (value_mono m G2 (value_from 0 ds') ltac:(apply value_mono with (n := 0) in G1; lia)). lia.
Qed.

Lemma loose_nonneg s n : loose_index blank s n -> 0 <= n.
Proof.
  intros (pre & ds & post & _ & _ & _ & _ & F & <- & _). apply (value_mono ds F 0). lia.
Qed.

Lemma loose_fun s n m : loose_index blank s n -> loose_index blank s m -> n = m.
Proof. rewrite <- !parse_index_spec. congruence. Qed.

Lemma canonical_loose s n : index_name s n -> loose_index blank s n.
Proof.
  intros (R & N & F & V & _). exists [], s, []. rewrite app_nil_r. repeat split; auto. lia.
Qed.

(** printing *)
Lemma decimal_loop_spec : forall fuel n acc, 0 <= n < 10 ^ Z.of_nat fuel -> (0 < fuel)%nat ->
  exists ds, decimal_loop fuel n acc = ds ++ acc /\ ds <> [] /\ Forall digit ds /\ value_from 0 ds = n /\
    (forall t, ds = 48 :: t -> t = []).
Proof.
  induction fuel; intros n acc H Hf; [lia|]. cbn [decimal_loop].
  pose proof (Z.div_mod n 10 ltac:(lia)) as DM. pose proof (Z.mod_pos_bound n 10 ltac:(lia)) as MB.
  destruct (Z.eqb_spec (n / 10) 0) as [E|E].
  - exists [48 + n mod 10]. split; [reflexivity|]. split; [discriminate|].
    split; [constructor; [unfold digit; lia|constructor]|]. cbn [value_from]. split; [lia|].
    intros t X. injection X as _ <-. reflexivity.
  - assert (Q : 0 <= n / 10) by (apply Z.div_pos; lia).
    assert (U : n / 10 < 10 ^ Z.of_nat fuel).
    { apply Z.div_lt_upper_bound; [lia|]. rewrite Nat2Z.inj_succ, Z.pow_succ_r in H by lia. lia. }
    destruct fuel as [|fuel]; [cbn in U; lia|].
    destruct (IHfuel (n / 10) ((48 + n mod 10) :: acc) ltac:(lia) ltac:(lia)) as (ds & -> & N & F & V & Z0).
    exists (ds ++ [48 + n mod 10]). split; [rewrite <- app_assoc; reflexivity|].
    split; [destruct ds; discriminate|].
    split; [apply Forall_app; split; [exact F|constructor; [unfold digit; lia|constructor]]|].
    split; [rewrite value_app, V; cbn [value_from]; lia|].
    intros t X. exfalso. destruct ds as [|d ds]; [congruence|]. cbn [app] in X. injection X as -> Xt.
    rewrite (Z0 ds eq_refl) in V. cbn in V. lia.
Qed.

Lemma decimal_name i : 0 <= i < 0xffffffff -> index_name (decimal i) i.
Proof.
  intros H. destruct (decimal_loop_spec 10 i [] ltac:(change (10 ^ Z.of_nat 10) with 10000000000; lia) ltac:(lia))
    as (ds & E & N & F & V & Z0).
  unfold decimal. rewrite E, app_nil_r. repeat split; auto; lia.
Qed.

Lemma value_lower ds : Forall digit ds -> forall n, 0 <= n -> n * 10 ^ Z.of_nat (length ds) <= value_from n ds < (n + 1) * 10 ^ Z.of_nat (length ds).
Proof.
  induction 1 as [|c ds D F IH]; intros n Hn; cbn [value_from length].
  - change (10 ^ Z.of_nat 0) with 1. lia.
  - unfold digit in D. rewrite Nat2Z.inj_succ, Z.pow_succ_r by lia.
    specialize (IH (10 * n + (c - 48)) ltac:(lia)).
    assert (P : 0 < 10 ^ Z.of_nat (length ds)) by (apply Z.pow_pos_nonneg; lia).
    revert IH. generalize (value_from (10 * n + (c - 48)) ds). intros v IH. nia.
Qed.

Lemma value_inj a : forall b n m, length a = length b -> Forall digit a -> Forall digit b ->
  0 <= n -> 0 <= m -> value_from n a = value_from m b -> n = m /\ a = b.
Proof.
  induction a as [|x a IH]; intros [|y b] n m L Fa Fb Hn Hm E; try discriminate; cbn [value_from] in E.
  - auto.
  - injection L as L. inversion Fa as [|? ? Dx Fa']; inversion Fb as [|? ? Dy Fb']; subst. unfold digit in *.
    destruct (IH b (10 * n + (x - 48)) (10 * m + (y - 48)) L Fa' Fb' ltac:(lia) ltac:(lia) E) as (En & ->). assert (n = m /\ x = y) by lia.
    destruct H. subst. auto.
Qed.

Lemma index_name_len s n : index_name s n -> s = [48] /\ n = 0 \/ 10 ^ Z.of_nat (length s - 1) <= n < 10 ^ Z.of_nat (length s).
Proof.
  intros (_ & N & F & V & Z0). destruct s as [|c s]; [congruence|].
  inversion F as [|? ? D F']; subst. cbn [value_from length] in *.
  pose proof (value_lower s F' (c - 48) ltac:(unfold digit in D; lia)) as B.
  replace (10 * 0 + (c - 48)) with (c - 48) in * by lia.
  destruct (Z.eq_dec c 48) as [->|Nc].
  - left. rewrite (Z0 s eq_refl). split; reflexivity.
  - right. replace (S (length s) - 1)%nat with (length s) by lia. rewrite Nat2Z.inj_succ, Z.pow_succ_r by lia.
    assert (P : 0 < 10 ^ Z.of_nat (length s)) by (apply Z.pow_pos_nonneg; lia).
    unfold digit in D. revert B. generalize (value_from (c - 48) s). intros v B. nia.
Qed.

Lemma index_name_unique s t n : index_name s n -> index_name t n -> s = t.
Proof.
  intros Hs Ht.
  pose proof (index_name_len _ _ Hs) as Ls. pose proof (index_name_len _ _ Ht) as Lt.
  assert (Ns : (1 <= length s)%nat) by (destruct Hs as (_ & N & _); destruct s; [congruence|cbn [length]; lia]).
  assert (Nt : (1 <= length t)%nat) by (destruct Ht as (_ & N & _); destruct t; [congruence|cbn [length]; lia]).
  assert (P0 : forall k, 0 < 10 ^ Z.of_nat k) by (intros; apply Z.pow_pos_nonneg; lia).
  destruct Ls as [(-> & ->)|Ls], Lt as [(-> & E)|Lt]; try reflexivity.
  - pose proof (P0 (length t - 1)%nat). lia.
  - subst. pose proof (P0 (length s - 1)%nat). lia.
  - assert (length s = length t).
    { destruct (Nat.lt_trichotomy (length s) (length t)) as [L|[L|L]]; [|exact L|].
      - pose proof (Z.pow_le_mono_r 10 (Z.of_nat (length s)) (Z.of_nat (length t - 1)) ltac:(lia) ltac:(lia)). lia.
      - pose proof (Z.pow_le_mono_r 10 (Z.of_nat (length t)) (Z.of_nat (length s - 1)) ltac:(lia) ltac:(lia)). lia. }
    destruct Hs as (_ & _ & Fs & Vs & _), Ht as (_ & _ & Ft & Vt & _).
    apply (value_inj s t 0 0 H Fs Ft); lia.
Qed.

(** ** heap *)
Lemma nth_upd {A} (l : list A) : forall i x j,
  nth_error (upd l i x) j = if Nat.eqb i j && (i <? length l)%nat then Some x else nth_error l j.
Proof.
  induction l as [|y l IH]; intros i x j; cbn [upd].
  - cbn [length]. rewrite andb_false_r. reflexivity.
  - destruct i, j; cbn [nth_error Nat.eqb length]; try reflexivity. rewrite IH. reflexivity.
Qed.

Lemma get_put st a o b x : get st a = Some x ->
  get (put st a o) b = if Nat.eqb a b then Some o else get st b.
Proof.
  unfold get, put. cbn [heap]. rewrite nth_upd. intros H.
  assert (L : (a < length (heap st))%nat).
  { apply nth_error_Some. destruct (nth_error (heap st) a); [discriminate|discriminate H]. }
  rewrite (proj2 (Nat.ltb_lt _ _) L), andb_true_r. destruct (Nat.eqb a b); reflexivity.
Qed.

Record wf (st : state) : Prop := {
  wf_table : forall a, In a (table st) <-> exists o, get st a = Some o /\ prop_key o = true;
  wf_inj : forall a b x y, In a (table st) -> In b (table st) -> get st a = Some x -> get st b = Some y ->
           chars x = chars y -> a = b;
  wf_noidx : forall a o, get st a = Some o -> not_index o = true -> parse_index (chars o) = None
}.

Definition denotes (st : state) (k : key) (c : str) : Prop :=
  match k with
  | KIndex n => parse_index c = Some n
  | KStr a => parse_index c = None /\ In a (table st) /\ exists o, get st a = Some o /\ chars o = c
  end.

Lemma put_flag_wf st a o : wf st -> get st a = Some o -> parse_index (chars o) = None ->
  wf (put st a {| chars := chars o; prop_key := prop_key o; not_index := true |}) /\
  (forall k c, denotes st k c -> denotes (put st a {| chars := chars o; prop_key := prop_key o; not_index := true |}) k c).
Proof.
  intros W G P. set (o' := {| chars := chars o; prop_key := prop_key o; not_index := true |}).
  assert (GP : forall b, get (put st a o') b = if Nat.eqb a b then Some o' else get st b).
  { intros b. apply get_put with (x := o), G. }
  split; [constructor|].
  - intros b. change (table (put st a o')) with (table st). rewrite (wf_table _ W), GP.
    destruct (Nat.eqb_spec a b) as [->|N]; [|reflexivity].
    split; intros (x & E & K).
    + exists o'. split; [reflexivity|]. cbn. congruence.
    + exists o. split; [exact G|]. injection E as <-. exact K.
  - intros b c x y Hb Hc. change (table (put st a o')) with (table st) in *. rewrite !GP.
    intros Eb Ec Ech.
    assert (Qb : exists x', get st b = Some x' /\ chars x' = chars x).
    { destruct (Nat.eqb_spec a b) as [->|]; [injection Eb as <-; eauto|eauto]. }
    assert (Qc : exists y', get st c = Some y' /\ chars y' = chars y).
    { destruct (Nat.eqb_spec a c) as [->|]; [injection Ec as <-; eauto|eauto]. }
    destruct Qb as (x' & Gx & Cx), Qc as (y' & Gy & Cy).
    apply (wf_inj _ W b c x' y'); auto. congruence.
  - intros b x. rewrite GP. destruct (Nat.eqb_spec a b) as [->|].
    + intros E _. injection E as <-. exact P.
    + apply (wf_noidx _ W).
  - intros [n|b] c; cbn [denotes]; [auto|]. intros (Pc & I & x & E & Ex).
    split; [exact Pc|]. split; [exact I|]. rewrite GP.
    destruct (Nat.eqb_spec a b) as [->|]; [|eauto]. exists o'. split; [reflexivity|]. cbn. congruence.
Qed.

Lemma to_index_spec st a o r st' : wf st -> get st a = Some o -> to_index st a = Some (r, st') ->
  wf st' /\ r = parse_index (chars o) /\ (forall k c, denotes st k c -> denotes st' k c) /\
  exists o', get st' a = Some o' /\ chars o' = chars o.
Proof.
  intros W G. unfold to_index. rewrite G. destruct (not_index o) eqn:NI.
  - intros E. injection E as <- <-. rewrite (wf_noidx _ W a o G NI). split; [exact W|]. split; [reflexivity|]. split; [auto|]. eauto.
  - destruct (parse_index (chars o)) as [n|] eqn:P; intros E; injection E as <- <-.
    + split; [exact W|]. split; [reflexivity|]. split; [auto|]. eauto.
    + destruct (put_flag_wf st a o W G P) as (W' & D). split; [exact W'|]. split; [reflexivity|]. split; [exact D|].
      exists {| chars := chars o; prop_key := prop_key o; not_index := true |}.
      rewrite (get_put _ _ _ _ o G), Nat.eqb_refl. auto.
Qed.

Lemma to_property_key_spec st a o b st' : wf st -> get st a = Some o -> parse_index (chars o) = None ->
  to_property_key st a = Some (b, st') ->
  wf st' /\ (forall k c, denotes st k c -> denotes st' k c) /\ denotes st' (KStr b) (chars o).
Proof.
  intros W G P. unfold to_property_key. rewrite G. destruct (prop_key o) eqn:PK.
  - intros E. injection E as <- <-. split; [exact W|]. split; [auto|]. split; [exact P|].
    split; [apply (wf_table _ W); eauto|eauto].
  - destruct (find (fun e => string_equal st a e) (table st)) as [e|] eqn:Fd; intros E; injection E as <- <-.
    + apply find_some in Fd. destruct Fd as (I & Q). split; [exact W|]. split; [auto|]. split; [exact P|].
      split; [exact I|]. apply (wf_table _ W) in I. destruct I as (x & Gx & Kx). exists x. split; [exact Gx|].
      unfold string_equal in Q. destruct (Nat.eqb_spec a e) as [->|]; [congruence|]. rewrite G, Gx, PK in Q.
      cbn [andb] in Q. apply content_equal_spec in Q. congruence.
    + set (o' := {| chars := chars o; prop_key := true; not_index := not_index o |}).
      assert (GP : forall b, get {| heap := heap (put st a o'); table := a :: table (put st a o') |} b =
                             if Nat.eqb a b then Some o' else get st b).
      { intros b. exact (get_put st a o' b o G). }
      assert (NI : ~ In a (table st)).
      { rewrite (wf_table _ W). intros (x & Gx & Kx). congruence. }
      assert (NF : forall b x, In b (table st) -> get st b = Some x -> chars x <> chars o).
      { intros b x I Gx Ec. pose proof (find_none _ _ Fd b I) as Q. cbn beta in Q. unfold string_equal in Q.
        destruct (Nat.eqb_spec a b) as [->|]; [contradiction|]. rewrite G, Gx, PK in Q. cbn [andb] in Q.
        rewrite <- Ec in Q. rewrite (proj2 (content_equal_spec _ _) eq_refl) in Q. discriminate. }
      split; [constructor|split].
      * intros b. cbn [table In put]. rewrite GP, (wf_table _ W). destruct (Nat.eqb_spec a b) as [->|N].
        -- split; [intros _; exists o'; auto|intros _; left; reflexivity].
        -- split; [intros [?|?]; [contradiction|assumption]|auto].
      * intros b c x y Hb Hc. rewrite !GP. cbn [table In put] in Hb, Hc. intros Eb Ec Q.
        destruct (Nat.eqb_spec a b) as [Nb|Nb], (Nat.eqb_spec a c) as [Nc|Nc]; [congruence| | |].
        -- destruct Hc as [?|Hc]; [congruence|]. injection Eb as <-. destruct (NF c y Hc Ec). cbn in Q. congruence.
        -- destruct Hb as [?|Hb]; [congruence|]. injection Ec as <-. destruct (NF b x Hb Eb). cbn in Q. congruence.
        -- destruct Hb as [?|Hb]; [congruence|]. destruct Hc as [?|Hc]; [congruence|]. eapply (wf_inj _ W); eauto.
      * intros b x. rewrite GP. destruct (Nat.eqb_spec a b) as [->|]; [|apply (wf_noidx _ W)].
        intros E NI'. injection E as <-. exact P.
      * intros [n|b] c; cbn [denotes]; [auto|]. intros (Pc & I & x & E & Ex). split; [exact Pc|].
        split; [right; exact I|]. rewrite GP. destruct (Nat.eqb_spec a b) as [->|]; [contradiction|eauto].
      * split; [exact P|]. split; [left; reflexivity|]. exists o'. rewrite GP, Nat.eqb_refl. auto.
Qed.

Lemma resolve_spec st v t k st' : wf st -> text st v = Some t -> resolve st v = Some (k, st') ->
  wf st' /\ (forall k c, denotes st k c -> denotes st' k c) /\ denotes st' k t.
Proof.
  intros W. destruct v as [i|a]; cbn [text resolve].
  - destruct (Z.leb_spec 0 i); [|discriminate]. destruct (Z.ltb_spec i 0xffffffff); [|discriminate].
    intros E1 E2. injection E1 as <-. injection E2 as <- <-. split; [exact W|]. split; [auto|].
    cbn [denotes]. apply parse_index_spec, canonical_loose, decimal_name. lia.
  - destruct (get st a) as [o|] eqn:G; [|discriminate]. intros E. injection E as <-.
    destruct (to_index st a) as [[r s1]|] eqn:TI; [|discriminate].
    destruct (to_index_spec st a o r s1 W G TI) as (W1 & Er & D1 & o' & G' & C').
    destruct r as [n|].
    + intros E. injection E as <- <-. split; [exact W1|]. split; [exact D1|]. cbn [denotes]. congruence.
    + destruct (to_property_key s1 a) as [[b s2]|] eqn:TP; [|discriminate]. intros E. injection E as <- <-.
      destruct (to_property_key_spec s1 a o' b s2 W1 G' ltac:(congruence) TP) as (W2 & D2 & K).
      split; [exact W2|]. split; [auto|]. rewrite <- C'. exact K.
Qed.

Lemma resolve_total st v t : text st v = Some t -> exists k st', resolve st v = Some (k, st').
Proof.
  destruct v as [i|a]; cbn [text resolve]; [eauto|].
  destruct (get st a) as [o|] eqn:G; [|discriminate]. intros _. unfold to_index. rewrite G.
  destruct (not_index o).
  - unfold to_property_key. rewrite G. destruct (prop_key o); [eauto|]. destruct (find _ _); eauto.
  - destruct (parse_index (chars o)); [eauto|]. unfold to_property_key. rewrite (get_put _ _ _ _ o G), Nat.eqb_refl.
    cbn [prop_key]. destruct (prop_key o); [eauto|]. destruct (find _ _); eauto.
Qed.

Lemma new_string_spec st s : wf st -> wf (new_string st s) /\
  (forall k c, denotes st k c -> denotes (new_string st s) k c).
Proof.
  intros W.
  assert (GN : forall b, get (new_string st s) b =
    if Nat.eqb b (length (heap st)) then Some {| chars := s; prop_key := false; not_index := false |} else get st b).
  { intros b. unfold get, new_string. cbn [heap]. destruct (Nat.eqb_spec b (length (heap st))) as [->|N].
    - rewrite nth_error_app2, Nat.sub_diag by lia. reflexivity.
    - destruct (Nat.lt_ge_cases b (length (heap st))).
      + rewrite nth_error_app1 by lia. reflexivity.
      + rewrite nth_error_app2 by lia. rewrite (proj2 (nth_error_None (heap st) b)) by lia.
        destruct (b - length (heap st))%nat as [|k] eqn:E; [lia|]. cbn [nth_error]. destruct k; reflexivity. }
  assert (GO : forall b x, get st b = Some x -> b <> length (heap st)).
  { intros b x H ->. unfold get in H. rewrite (proj2 (nth_error_None (heap st) (length (heap st)))) in H by lia. discriminate. }
  assert (GX : forall b x, get st b = Some x -> get (new_string st s) b = Some x).
  { intros b x H. rewrite GN. destruct (Nat.eqb_spec b (length (heap st))); [destruct (GO b x H); assumption|exact H]. }
  assert (GI : forall b x, In b (table st) -> get (new_string st s) b = Some x -> get st b = Some x).
  { intros b x I H. apply (wf_table _ W) in I. destruct I as (y & Gy & _). rewrite (GX _ _ Gy) in H. congruence. }
  split; [constructor|].
  - intros a. change (table (new_string st s)) with (table st). rewrite (wf_table _ W), GN.
    destruct (Nat.eqb_spec a (length (heap st))) as [->|]; [|reflexivity].
    split; intros (x & E & K); [destruct (GO _ _ E eq_refl)|]. injection E as <-. discriminate.
  - intros a b x y Ha Hb Ea Eb Q. change (table (new_string st s)) with (table st) in *.
    apply (wf_inj _ W a b x y); auto.
  - intros a x. rewrite GN. destruct (Nat.eqb a (length (heap st))); [|apply (wf_noidx _ W)].
    intros E. injection E as <-. discriminate.
  - intros [n|a] c; cbn [denotes]; [auto|]. intros (P & I & x & G & E). repeat split; auto. exists x. auto.
Qed.

Lemma free_string_spec st a : wf st -> wf (free_string st a) /\
  (forall k c, k <> KStr a -> denotes st k c -> denotes (free_string st a) k c).
Proof.
  intros W.
  assert (GF : forall b, get (free_string st a) b = if Nat.eqb a b then None else get st b).
  { intros b. unfold get, free_string. cbn [heap]. rewrite nth_upd. destruct (Nat.eqb_spec a b) as [->|]; cbn [andb]; [|reflexivity].
    destruct (Nat.ltb_spec b (length (heap st))) as [L|L]; [reflexivity|].
    rewrite (proj2 (nth_error_None _ _)) by lia. reflexivity. }
  assert (TF : forall b, In b (table (free_string st a)) <-> In b (table st) /\ b <> a).
  { intros b. unfold free_string. cbn [table]. rewrite filter_In, negb_true_iff, Nat.eqb_neq. reflexivity. }
  split; [constructor|].
  - intros b. rewrite TF, (wf_table _ W), GF. destruct (Nat.eqb_spec a b) as [->|N].
    + split; [intros (_ & K); congruence|intros (x & E & _); discriminate].
    + split; [intros (K & _); exact K|intros K; split; [exact K|congruence]].
  - intros b c x y. rewrite !TF, !GF. intros (Hb & Nb) (Hc & Nc).
    rewrite (proj2 (Nat.eqb_neq a b)), (proj2 (Nat.eqb_neq a c)) by congruence. apply (wf_inj _ W b c x y Hb Hc).
  - intros b x. rewrite GF. destruct (Nat.eqb a b); [discriminate|]. apply (wf_noidx _ W).
  - intros [n|b] c N; cbn [denotes]; [auto|]. intros (P & I & x & G & E).
    assert (b <> a) by congruence. split; [exact P|]. split; [apply TF; auto|]. exists x. rewrite GF.
    rewrite (proj2 (Nat.eqb_neq a b)) by congruence. auto.
Qed.

Definition good (p : state * list (key * str)) : Prop :=
  wf (fst p) /\ forall k c, In (k, c) (snd p) -> denotes (fst p) k c.

Lemma step_good p o : good p -> good (step p o).
Proof.
  destruct p as [st out]. intros (W & D). cbn [fst snd] in *. destruct o as [s|v|a]; cbn [step].
  - destruct (new_string_spec st s W) as (W' & K). split; cbn [fst snd]; auto.
  - destruct (text st v) as [t|] eqn:T; [|split; assumption].
    destruct (resolve st v) as [[k st']|] eqn:R; [|split; assumption].
    destruct (resolve_spec st v t k st' W T R) as (W' & K & Dk). split; cbn [fst snd]; [exact W'|].
    intros k' c' [E|I]; [injection E as <- <-; exact Dk|auto].
  - destruct (held out a) eqn:H; [split; assumption|].
    destruct (free_string_spec st a W) as (W' & K). split; cbn [fst snd]; [exact W'|].
    intros k c I. apply K; [|auto]. intros ->. unfold held in H.
    assert (X : existsb (fun p => match fst p with KStr b => Nat.eqb a b | _ => false end) out = true).
    { apply existsb_exists. exists (KStr a, c). split; [exact I|]. cbn. apply Nat.eqb_refl. }
    congruence.
Qed.

Lemma run_good ops : good (run ops).
Proof.
  unfold run. assert (G0 : good (init, [])).
  { split; cbn [fst snd]; [|intros k c []]. constructor; cbn.
    - intros a. split; [intros []|]. intros (o & E & _). unfold get in E. cbn in E. destruct a; discriminate.
    - intros a b x y [].
    - intros a o E. unfold get in E. cbn in E. destruct a; discriminate. }
  revert G0. generalize (init, @nil (key * str)). induction ops as [|o ops IH]; intros p G; [exact G|].
  cbn [fold_left]. apply IH, step_good, G.
Qed.

Theorem keys_equal ops k1 c1 k2 c2 : In (k1, c1) (snd (run ops)) -> In (k2, c2) (snd (run ops)) ->
  (k1 = k2 <-> c1 = c2 \/ exists n, loose_index blank c1 n /\ loose_index blank c2 n).
Proof.
  intros I1 I2. destruct (run_good ops) as (W & D). set (st := fst (run ops)) in *.
  apply D in I1, I2. clear D.
  setoid_rewrite <- parse_index_spec.
  destruct k1 as [n1|a1], k2 as [n2|a2]; cbn [denotes] in *.
  - split; [intros E; injection E as ->; right; eauto|]. intros [->|(n & E1 & E2)]; congruence.
  - destruct I2 as (P & _). split; [discriminate|]. intros [->|(n & E1 & E2)]; congruence.
  - destruct I1 as (P & _). split; [discriminate|]. intros [->|(n & E1 & E2)]; congruence.
  - destruct I1 as (P1 & T1 & x & Gx & <-), I2 as (P2 & T2 & y & Gy & <-).
    split.
    + intros E. injection E as ->. left. congruence.
    + intros [E|(n & E1 & E2)]; [|congruence]. f_equal. exact (wf_inj _ W a1 a2 x y T1 T2 Gx Gy E).
Qed.

(** A name is tidy when the code takes it for an index only if it is the
    canonical form of one. *)
Definition tidy (s : str) : Prop := forall n, loose_index blank s n -> index_name s n.

Theorem keys_equal_tidy ops k1 c1 k2 c2 : In (k1, c1) (snd (run ops)) -> In (k2, c2) (snd (run ops)) ->
  tidy c1 -> tidy c2 -> (k1 = k2 <-> c1 = c2).
Proof.
  intros I1 I2 T1 T2. rewrite (keys_equal ops k1 c1 k2 c2 I1 I2). split; [|auto].
  intros [E|(n & L1 & L2)]; [exact E|]. exact (index_name_unique c1 c2 n (T1 n L1) (T2 n L2)).
Qed.

Theorem index_key ops k c n : In (k, c) (snd (run ops)) -> (k = KIndex n <-> loose_index blank c n).
Proof.
  intros I. destruct (run_good ops) as (W & D). apply D in I. rewrite <- parse_index_spec.
  destruct k as [m|a]; cbn [denotes] in I.
  - rewrite I. split; congruence.
  - destruct I as (P & _). rewrite P. split; discriminate.
Qed.
