(** Proofs about replacement templates. *)
From Coq Require Import List ZArith Bool Lia Arith.
Import ListNotations.
From Verif Require Import StrModel StrSpec StrProofs SubstModel SubstSpec.
Local Open Scope Z_scope.

(** a lookup that has no undefined behaviour, as an answer function *)
Definition agrees (g : option lookup) (a : option (list Z -> answer)) : Prop :=
  match g, a with
  | None, None => True
  | Some g, Some a => forall n, match a n with
                                | AText t => g n = SOk (Some t)
                                | AUndefined => g n = SOk None
                                | AThrow => g n = SThrow
                                end
  | _, _ => False
  end.

Lemma scan_gt_some c n r : scan_gt c = Some (n, r) -> c = n ++ 62 :: r /\ ~ In 62 n.
Proof.
  revert n r. induction c as [|x c IH]; intros n r; cbn [scan_gt]; [discriminate|].
  destruct (Z.eqb_spec x 62) as [->|N].
  - intros E. injection E as <- <-. split; [reflexivity|intros []].
  - destruct (scan_gt c) as [[n' r']|]; [|discriminate]. intros E. injection E as <- <-.
    destruct (IH n' r' eq_refl) as (-> & K). split; [reflexivity|]. intros [?|?]; [congruence|contradiction].
Qed.

Lemma scan_gt_none c : scan_gt c = None -> ~ In 62 c.
Proof.
  induction c as [|x c IH]; cbn [scan_gt]; [intros _ []|].
  destruct (Z.eqb_spec x 62); [discriminate|]. destruct (scan_gt c) as [[? ?]|]; [discriminate|].
  intros _ [?|?]; [congruence|]. apply IH; auto.
Qed.

Definition to_sres (o : option str) : sres str := match o with Some x => SOk x | None => SThrow end.

Lemma expands_cons s pos m caps g t r rest o :
  piece s pos m caps g t (Some r) rest -> expands s pos m caps g rest o ->
  expands s pos m caps g t (match o with Some x => Some (r ++ x) | None => None end).
Proof. intros P E. destruct o; [eapply e_text|eapply e_throw_later]; eauto. Qed.

Lemma is_digit_char_spec c : is_digit c = true <-> is_digit_char c.
Proof. unfold is_digit, is_digit_char. rewrite andb_true_iff, !Z.leb_le. reflexivity. Qed.

Lemma cap_nth (caps : list (option str)) k o : nth_error caps (Z.to_nat (k - 1)) = Some o ->
  cap caps k = match o with Some t => t | None => [] end.
Proof.
  intros E. unfold cap.
  exact (f_equal (fun q : option (option (list Z)) => match q with Some (Some t) => t | _ => [] end) E).
Qed.

Lemma subst_digit_spec s pos m caps g cn d c :
  is_digit_char d -> 0 <= cn -> Z.of_nat (length caps) = Z.max (cn - 1) 0 ->
  (cn = 0 -> d = 48 -> forall c', c <> 48 :: c') ->
  exists t rest, subst_digit cn caps d c = SOk (t, rest) /\ (length rest <= length c)%nat /\
    (piece s pos m caps g (36 :: d :: c) (Some t) rest).
Proof.
  intros D Hc Hl H00.
  assert (Hn : ncaps caps = Z.max (cn - 1) 0) by exact Hl. unfold subst_digit. pose proof D as D'. unfold is_digit_char in D'.
  assert (One : (forall d2 t', c = d2 :: t' -> is_digit_char d2 -> ncaps caps < 10 * (d - 48) + (d2 - 48)) ->
    exists t rest, (if (d - 48 =? 0) || (cn <=? d - 48) then SOk ([36; d], c)
      else match nth_error caps (Z.to_nat (d - 48 - 1)) with
           | None => SUB | Some None => SOk ([], c) | Some (Some s0) => SOk (s0, c) end) = SOk (t, rest) /\
      (length rest <= length c)%nat /\ piece s pos m caps g (36 :: d :: c) (Some t) rest).
  { intros H. destruct (Z.eqb_spec (d - 48) 0); cbn [orb].
    { exists [36; d], c. split; [reflexivity|]. split; [lia|]. apply p_nocap1; auto. lia. }
    destruct (Z.leb_spec cn (d - 48)).
    { exists [36; d], c. split; [reflexivity|]. split; [lia|]. apply p_nocap1; auto. lia. }
    assert (P : piece s pos m caps g (36 :: d :: c) (Some (cap caps (d - 48))) c).
    { eapply p_cap1; eauto. lia. }
    destruct (nth_error_lt caps (Z.to_nat (d - 48 - 1)) ltac:(lia)) as (o & E). rewrite E.
    rewrite (cap_nth _ _ _ E) in P.
    destruct o; eexists; eexists; (split; [reflexivity|]); (split; [lia|exact P]). }
  destruct c as [|x c1].
  { apply One. intros; discriminate. }
  destruct (is_digit x) eqn:Dx.
  - apply is_digit_char_spec in Dx. pose proof Dx as Dx'. unfold is_digit_char in Dx'.
    replace ((d - 48) * 10 + (x - 48)) with (10 * (d - 48) + (x - 48)) by lia.
    rewrite (proj2 (Z.leb_le 0 _)) by lia. cbn [andb].
    destruct (Z.ltb_spec (10 * (d - 48) + (x - 48)) cn).
    + destruct (Z.eqb_spec (10 * (d - 48) + (x - 48)) 0) as [E|E]; cbn [orb].
      * exists [36; d; x], c1. split; [reflexivity|]. split; [cbn [length]; lia|].
        replace d with 48 by lia. replace x with 48 by lia. constructor.
      * rewrite (proj2 (Z.leb_gt cn _)) by lia.
        assert (P : piece s pos m caps g (36 :: d :: x :: c1) (Some (cap caps (10 * (d - 48) + (x - 48)))) c1).
        { eapply p_cap2; eauto. lia. }
        destruct (nth_error_lt caps (Z.to_nat (10 * (d - 48) + (x - 48) - 1)) ltac:(lia)) as (o & En). rewrite En.
        rewrite (cap_nth _ _ _ En) in P.
        destruct o; eexists; eexists; (split; [reflexivity|]); (split; [cbn [length]; lia|exact P]).
    + apply One. intros d2 t' Ed _. injection Ed as <- <-.
      destruct (Z.eq_dec cn 0) as [Z0|]; [|lia].
      destruct (Z.eq_dec (10 * (d - 48) + (x - 48)) 0); [|lia].
      exfalso. apply (H00 Z0 ltac:(lia) c1). f_equal. lia.
  - apply One. intros d2 t' Ed K. injection Ed as <- <-. apply is_digit_char_spec in K. congruence.
Qed.

Section Loop.
  Variables (s : str) (pos : nat) (m : str) (cn : Z) (caps : list (option str)).
  Variables (groups : option lookup) (ans : option (list Z -> answer)).
  Hypothesis Hpos : (pos + length m <= length s)%nat.
  Hypothesis Hcn : 0 <= cn.
  Hypothesis Hcaps : Z.of_nat (length caps) = Z.max (cn - 1) 0.
  Hypothesis Hg : agrees groups ans.

  Lemma subst_loop_spec : forall fuel ucb c, (length c <= fuel)%nat ->
    exists o, expands s pos m caps ans c o /\
      subst_loop fuel s pos m cn caps groups ucb c = to_sres (match o with Some x => Some (ucb ++ x) | None => None end).
  Proof.
    assert (Fin_ : forall ucb c r rest o X, piece s pos m caps ans c (Some r) rest ->
      expands s pos m caps ans rest o ->
      X = to_sres (match o with Some x => Some ((ucb ++ r) ++ x) | None => None end) ->
      exists o', expands s pos m caps ans c o' /\
        X = to_sres (match o' with Some x => Some (ucb ++ x) | None => None end)).
    { intros ucb c r rest o X P E ->. eexists. split; [eapply expands_cons; eauto|].
      destruct o; [rewrite app_assoc|]; reflexivity. }
    induction fuel as [fuel IH] using lt_wf_ind. intros ucb c H.
    destruct c as [|x c1].
    { exists (Some []). split; [constructor|]. rewrite app_nil_r. destruct fuel; reflexivity. }
    destruct fuel as [|f]; [cbn [length] in H; lia|]. cbn [length] in H. cbn [subst_loop].
    assert (IH' : forall ucb c, (length c <= f)%nat -> exists o, expands s pos m caps ans c o /\
       subst_loop f s pos m cn caps groups ucb c = to_sres (match o with Some x => Some (ucb ++ x) | None => None end))
      by (intros; apply IH; lia).
    destruct (Z.eqb_spec x 36) as [->|Nx].
    2:{ destruct (IH' (ucb ++ [x]) c1 ltac:(lia)) as (o & E & K). eapply Fin_; [apply p_char, Nx|exact E|exact K]. }
    destruct c1 as [|y c2].
    { destruct (IH' (ucb ++ [36]) [] ltac:(cbn [length]; lia)) as (o & E & K).
      eapply Fin_; [apply p_lone; discriminate|exact E|exact K]. }
    cbn [length] in H.
    destruct (Z.eqb_spec y 36) as [->|N1].
    { destruct (IH' (ucb ++ [36]) c2 ltac:(lia)) as (o & E & K). eapply Fin_; [apply p_dollar|exact E|exact K]. }
    destruct (Z.eqb_spec y 96) as [->|N2].
    { rewrite substr_ok by lia. cbn [sbind skipn]. rewrite Nat.sub_0_r.
      destruct (IH' (ucb ++ firstn pos s) c2 ltac:(lia)) as (o & E & K). eapply Fin_; [apply p_before|exact E|exact K]. }
    destruct (Z.eqb_spec y 38) as [->|N3].
    { destruct (IH' (ucb ++ m) c2 ltac:(lia)) as (o & E & K). eapply Fin_; [apply p_match|exact E|exact K]. }
    destruct (Z.eqb_spec y 39) as [->|N4].
    { rewrite substr_ok by lia. cbn [sbind].
      rewrite firstn_all2 by (rewrite skipn_length; lia).
      destruct (IH' (ucb ++ skipn (pos + length m) s) c2 ltac:(lia)) as (o & E & K).
      eapply Fin_; [apply p_after|exact E|]. rewrite Nat.min_l by lia. exact K. }
    destruct (Z.eqb_spec y 60) as [->|N5].
    { assert (None_ : ans = None \/ ~ In 62 c2 -> exists o,
        expands s pos m caps ans (36 :: 60 :: c2) o /\
        subst_loop f s pos m cn caps groups (ucb ++ [36; 60]) c2 =
          to_sres (match o with Some x => Some (ucb ++ x) | None => None end)).
      { intros X. destruct (IH' (ucb ++ [36; 60]) c2 ltac:(lia)) as (o & E & K).
        eapply Fin_; [apply p_noname, X|exact E|exact K]. }
      destruct (scan_gt c2) as [[name rest]|] eqn:Sg; [|apply None_; right; apply scan_gt_none, Sg].
      destruct groups as [g|]; [|apply None_; left; destruct ans; [contradiction|reflexivity]].
      destruct ans as [a|]; [|contradiction]. cbn [agrees] in Hg.
      destruct (scan_gt_some _ _ _ Sg) as (-> & Nn). rewrite app_length in H. cbn [length] in H.
      pose proof (p_name s pos m caps (Some a) a name rest eq_refl Nn) as P.
      specialize (Hg name). destruct (a name) as [t| |]; rewrite Hg; cbn [sbind].
      - destruct (IH' (ucb ++ t) rest ltac:(lia)) as (o & E & K). eapply Fin_; [exact P|exact E|exact K].
      - destruct (IH' ucb rest ltac:(lia)) as (o & E & K). eapply Fin_; [exact P|exact E|].
        rewrite app_nil_r. exact K.
      - exists None. split; [|reflexivity]. eapply e_throw, P. }
    destruct (is_digit y) eqn:Dy.
    - apply is_digit_char_spec in Dy.
      assert (Cs : (cn = 0 /\ y = 48 /\ exists c3, c2 = 48 :: c3) \/ (cn = 0 -> y = 48 -> forall c', c2 <> 48 :: c')).
      { destruct (Z.eq_dec cn 0); [|right; intros; congruence]. destruct (Z.eq_dec y 48); [|right; intros; congruence].
        destruct c2 as [|z c3]; [right; discriminate|]. destruct (Z.eq_dec z 48) as [->|]; [left; eauto|right; congruence]. }
      destruct Cs as [(Z0 & -> & c3 & ->)|Cs].
      { (* $00 with no captures at all: two rounds of the loop *)
        unfold subst_digit. change (is_digit 48) with true. change (48 - 48) with 0. rewrite Z0.
        change ((0 <=? 0 * 10 + 0) && (0 * 10 + 0 <? 0)) with false. cbn iota beta.
        change ((0 =? 0) || (0 <=? 0)) with true. cbn [sbind fst snd].
        cbn [length] in H. destruct f as [|f']; [lia|]. cbn [subst_loop]. change (48 =? 36) with false. cbn iota.
        rewrite <- Z0. destruct (IH f' ltac:(lia) ((ucb ++ [36; 48]) ++ [48]) c3 ltac:(lia)) as (o & E & K).
        eapply Fin_; [apply p_cap00|exact E|]. rewrite <- (app_assoc ucb [36; 48] [48]) in *. exact K. }
      destruct (subst_digit_spec s pos m caps ans cn y c2 Dy Hcn Hcaps Cs) as (t & rest & Et & L & P).
      rewrite Et. cbn [sbind fst snd]. destruct (IH' (ucb ++ t) rest ltac:(lia)) as (o & E & K).
      eapply Fin_; [exact P|exact E|exact K].
    - destruct (IH' (ucb ++ [36]) (y :: c2) ltac:(cbn [length]; lia)) as (o & E & K).
      eapply Fin_; [apply p_lone|exact E|exact K].
      intros c t' Et. injection Et as <- <-. rewrite <- is_digit_char_spec, Dy. split; [discriminate|].
      cbn [In]. intuition congruence.
  Qed.

  Theorem get_substitution_spec templ : exists o, expands s pos m caps ans templ o /\
    get_substitution s pos m cn caps groups templ = to_sres o.
  Proof.
    destruct (subst_loop_spec (length templ) [] templ ltac:(lia)) as (o & E & K). exists o. split; [exact E|].
    unfold get_substitution. rewrite K. destruct o; reflexivity.
  Qed.
End Loop.

(** the specification determines the result *)
Lemma app_62_inj a : forall b r t, ~ In 62 a -> ~ In 62 b -> a ++ 62 :: r = b ++ 62 :: t -> a = b /\ r = t.
Proof.
  induction a as [|x a IH]; intros [|y b] r t Na Nb E; cbn [app] in E.
  - injection E as <-. auto.
  - injection E as <- _. exfalso. apply Nb. left. reflexivity.
  - injection E as -> _. exfalso. apply Na. left. reflexivity.
  - injection E as -> E. destruct (IH b r t) as (-> & ->); auto.
    + intros K. apply Na. right. exact K.
    + intros K. apply Nb. right. exact K.
Qed.

Lemma piece_fun s pos m caps g t r1 k1 r2 k2 :
  piece s pos m caps g t r1 k1 -> piece s pos m caps g t r2 k2 -> r1 = r2 /\ k1 = k2.
Proof.
  intros H1 H2. destruct H1; inversion H2; subst; auto; try contradiction; try congruence;
    unfold is_digit_char, ncaps in *; try lia;
    try (match goal with H : forall d2 t', _ :: _ = d2 :: t' -> _ -> _ |- _ =>
           specialize (H _ _ eq_refl ltac:(lia)); lia end);
    try (match goal with H : forall c t', _ :: _ = c :: t' -> _ /\ _ |- _ =>
           destruct (H _ _ eq_refl) as (K1 & K2); exfalso; (apply K1; lia) || (apply K2; cbn [In]; auto 10) end).
  - match goal with H : _ ++ 62 :: _ = _ ++ 62 :: _ |- _ => apply app_62_inj in H; auto; destruct H as (-> & ->) end.
    replace get0 with get by congruence. auto.
  - exfalso. match goal with H : _ \/ ~ In 62 _ |- _ => destruct H as [?|K] end; [congruence|]. apply K. apply in_app_iff. right. left. reflexivity.
  - exfalso. match goal with H : _ \/ ~ In 62 _ |- _ => destruct H as [?|K] end; [congruence|]. apply K. apply in_app_iff. right. left. reflexivity.
Qed.

Lemma piece_shorter s pos m caps g t r k : piece s pos m caps g t r k -> (length k < length t)%nat.
Proof. destruct 1; cbn [length]; rewrite ?app_length; cbn [length]; lia. Qed.

Theorem expands_fun s pos m caps g t o1 o2 :
  expands s pos m caps g t o1 -> expands s pos m caps g t o2 -> o1 = o2.
Proof.
  intros H. revert o2. induction H as [|t r rest x P E IH|t r rest P E IH|t rest P]; intros o2 H2;
    inversion H2; subst; auto;
    try (match goal with P : piece _ _ _ _ _ [] _ _ |- _ => apply piece_shorter in P; cbn [length] in P; lia end);
    match goal with P1 : piece _ _ _ _ _ ?t _ _, P2 : piece _ _ _ _ _ ?t _ _ |- _ =>
      destruct (piece_fun _ _ _ _ _ _ _ _ _ _ P1 P2) as (Er & ->) end; try discriminate.
  - injection Er as ->. specialize (IH _ H0). congruence.
  - specialize (IH _ H0). congruence.
  - specialize (IH _ H0). congruence.
Qed.

(** ** replace and replaceAll *)
Lemma expands_no_throw s pos m caps t o : expands s pos m caps None t o -> o <> None.
Proof.
  induction 1 as [| | t r rest P E IH | t rest P]; try discriminate; [exact IH|].
  inversion P; subst; discriminate.
Qed.

Lemma template_no_ub s search t pos : occurs search s pos ->
  exists x, get_substitution s pos search 1 [] None t = SOk x /\ expands s pos search [] None t (Some x).
Proof.
  intros O. apply occurs_len in O.
  destruct (get_substitution_spec s pos search 1 [] None None O ltac:(lia) eq_refl I t) as (o & E & K).
  destruct o as [x|]; [exists x; auto|]. destruct (expands_no_throw _ _ _ _ _ _ E eq_refl).
Qed.

Theorem js_replace_spec s search r :
  (forall i, ~ occurs search s i) /\ js_replace s search r = SOk s \/
  exists i, occurs search s i /\ (forall j, occurs search s j -> (i <= j)%nat) /\
    js_replace s search r = sbind (replacement s search r i)
      (fun x => SOk (firstn i s ++ x ++ skipn (i + length search) s)).
Proof.
  unfold js_replace. destruct (index_of_spec s search 0) as (p & -> & F). cbn [sbind].
  destruct F as [(i & -> & _ & O & M)|(-> & M)].
  - right. exists i. split; [exact O|]. split; [intros j Oj; apply M; [lia|exact Oj]|].
    rewrite (proj2 (Z.eqb_neq _ _)) by lia. rewrite Nat2Z.id.
    apply occurs_len in O. rewrite (proj2 (Nat.ltb_ge _ _)) by lia. reflexivity.
  - left. split; [intros i; apply M; lia|reflexivity].
Qed.

Lemma replace_all_loop_spec s search r : forall fuel ucb start from pos,
  (start <= from)%nat -> (start <= length s)%nat -> (length s + 1 - from < fuel)%nat ->
  first_from search s from pos ->
  exists l, matches search s from l /\
    ((exists reps, Forall2 (fun i x => replacement s search r i = SOk x) l reps /\
        replace_all_loop fuel s search r ucb start pos = SOk (ucb ++ weave search s start l reps)) \/
     (exists l1 i l2 reps, l = l1 ++ i :: l2 /\ Forall2 (fun i x => replacement s search r i = SOk x) l1 reps /\
        (forall x, replacement s search r i <> SOk x) /\
        replace_all_loop fuel s search r ucb start pos = sbind (replacement s search r i) (fun _ => SOk []))).
Proof.
  induction fuel as [|f IH]; intros ucb start from pos Hs Hl Hf F; [lia|]. cbn [replace_all_loop].
  destruct F as [(i & -> & Hi & O & M)|(-> & M)].
  - rewrite (proj2 (Z.eqb_neq _ _)) by lia. rewrite Nat2Z.id. pose proof (occurs_len _ _ _ O) as Lo.
    rewrite substr_ok by lia. cbn [sbind].
    set (spos := if Nat.eqb (length search) 0 then S (i + length search) else (i + length search)%nat).
    assert (Es : spos = (i + Nat.max 1 (length search))%nat).
    { unfold spos. destruct (Nat.eqb_spec (length search) 0); lia. }
    destruct (index_of_spec s search spos) as (p & Ep & Fp).
    destruct (replacement s search r i) as [x| |] eqn:Er; cbn [sbind].
    + rewrite Ep. cbn [sbind].
      destruct (IH (ucb ++ firstn (i - start) (skipn start s) ++ x) (i + length search)%nat spos p
        ltac:(lia) ltac:(lia) ltac:(lia) Fp) as (l & Ml & [(reps & Fr & E)|(l1 & j & l2 & reps & El & Fr & Nj & E)]).
      * exists (i :: l). split; [apply m_next; auto; rewrite <- Es; exact Ml|]. left.
        exists (x :: reps). split; [constructor; assumption|]. rewrite E. cbn [weave]. rewrite <- !app_assoc. reflexivity.
      * exists (i :: l). split; [apply m_next; auto; rewrite <- Es; exact Ml|]. right.
        exists (i :: l1), j, l2, (x :: reps). split; [rewrite El; reflexivity|]. split; [constructor; assumption|]. auto.
    + destruct (IH ucb (i + length search)%nat spos p ltac:(lia) ltac:(lia) ltac:(lia) Fp) as (l & Ml & _).
      exists (i :: l). split; [apply m_next; auto; rewrite <- Es; exact Ml|]. right.
      exists [], i, l, []. rewrite Er. repeat split; auto. discriminate.
    + destruct (IH ucb (i + length search)%nat spos p ltac:(lia) ltac:(lia) ltac:(lia) Fp) as (l & Ml & _).
      exists (i :: l). split; [apply m_next; auto; rewrite <- Es; exact Ml|]. right.
      exists [], i, l, []. rewrite Er. repeat split; auto. discriminate.
  - change (-1 =? -1) with true. cbn iota. exists []. split; [apply m_none, M|]. left. exists [].
    split; [constructor|]. cbn [weave]. destruct (Nat.ltb_spec start (length s)); [reflexivity|].
    rewrite skipn_all2, app_nil_r by lia. reflexivity.
Qed.

Lemma matches_fun p s from l1 l2 : matches p s from l1 -> matches p s from l2 -> l1 = l2.
Proof.
  intros H. revert l2. induction H as [from N|from i l Hi O M H IH]; intros l2 H2; inversion H2; subst; auto.
  - destruct (N i); assumption.
  - destruct (H0 i); assumption.
  - assert (i = i0) by (apply Nat.le_antisymm; auto). subst i0. f_equal. auto.
Qed.

Lemma matches_occurs p s from l : matches p s from l -> Forall (fun i => occurs p s i /\ (from <= i)%nat) l.
Proof.
  induction 1 as [|from i l Hi O M H IH]; [constructor|]. constructor; [auto|].
  eapply Forall_impl; [|exact IH]. cbn beta. intros a (A & B). split; [exact A|lia].
Qed.

(** with a template, replaceAll always gives a string: every leftmost match is
    replaced by the template's expansion *)
Theorem js_replaceAll_template s search t :
  exists l reps, matches search s 0 l /\
    Forall2 (fun i x => expands s i search [] None t (Some x)) l reps /\
    js_replaceAll s search (RTemplate t) = SOk (weave search s 0 l reps).
Proof.
  unfold js_replaceAll. destruct (index_of_spec s search 0) as (p & -> & F). cbn [sbind].
  destruct (replace_all_loop_spec s search (RTemplate t) (S (S (length s))) [] 0 0 p ltac:(lia) ltac:(lia) ltac:(lia) F)
    as (l & Ml & [(reps & Fr & E)|(l1 & i & l2 & reps & El & Fr & N & E)]).
  - exists l, reps. split; [exact Ml|]. split; [|rewrite E; reflexivity].
    apply matches_occurs in Ml. clear E. induction Fr as [|i x l reps R Fr IH]; [constructor|].
    inversion Ml as [|? ? (O & _) Ml']; subst. constructor; [|auto]. cbn [replacement] in R.
    destruct (template_no_ub s search t i O) as (y & Ey & X). rewrite Ey in R. injection R as <-. exact X.
  - exfalso. apply matches_occurs in Ml. rewrite El in Ml. apply Forall_app in Ml. destruct Ml as (_ & Ml).
    inversion Ml as [|? ? (O & _) _]; subst. destruct (template_no_ub s search t i O) as (y & Ey & _).
    exact (N y Ey).
Qed.

Theorem js_replaceAll_func s search f : (forall i, f i <> SUB) ->
  exists l, matches search s 0 l /\
    ((exists reps, Forall2 (fun i x => f i = SOk x) l reps /\
        js_replaceAll s search (RFunc f) = SOk (weave search s 0 l reps)) \/
     (exists i, In i l /\ f i = SThrow /\ js_replaceAll s search (RFunc f) = SThrow)).
Proof.
  intros NU. unfold js_replaceAll. destruct (index_of_spec s search 0) as (p & -> & F). cbn [sbind].
  destruct (replace_all_loop_spec s search (RFunc f) (S (S (length s))) [] 0 0 p ltac:(lia) ltac:(lia) ltac:(lia) F)
    as (l & Ml & [(reps & Fr & E)|(l1 & i & l2 & reps & El & Fr & N & E)]).
  - exists l. split; [exact Ml|]. left. exists reps. split; [exact Fr|rewrite E; reflexivity].
  - exists l. split; [exact Ml|]. right. exists i. cbn [replacement] in *. split; [|split].
    + rewrite El. apply in_app_iff. right. left. reflexivity.
    + destruct (f i) eqn:Ef; [destruct (N a eq_refl)|reflexivity|destruct (NU i Ef)].
    + rewrite E. destruct (f i) eqn:Ef; [destruct (N a eq_refl)|reflexivity|destruct (NU i Ef)].
Qed.
