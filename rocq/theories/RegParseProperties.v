(** Patterns: C73-C75 *)
From Coq Require Import ZArith List Bool Arith Lia ZifyBool.
Import ListNotations.
From Verif Require Import RegModel RegSpec RegParseModel RegParseSpec RegParseProofs RegParseTree RegParseSafe RegParseTotal.
From Verif Require Import RegBase RegProofs RegText RegProperties.
Local Open Scope Z_scope.

(** identifier characters of ASCII; one property, L *)
Definition idc0 (c : Z) : bool := is_alpha c || StrModel.is_digit c || (c =? 36) || (c =? 95).
Definition ids0 (c : Z) : bool := is_alpha c || (c =? 36) || (c =? 95).
Definition penv0 (u n : bool) (j : Z) : penv :=
  {| p_u := u; p_n := n; id_start := ids0; id_continue := idc0;
     prop_lookup := fun m v => if list_eq_dec Z.eq_dec m [76] then Some (1, 2) else None; junk := j |}.
Lemma tables0 : forall u n j, ascii_tables (tables_of (penv0 u n j)).
Proof.
  intros u n j. unfold ascii_tables, letter, digit. cbn. unfold idc0, ids0, is_alpha, StrModel.is_digit.
  split; [|split; [|split]]; intros; lia.
Qed.
Lemma hex_t : forall w ds v, Forall2 hexd w ds -> v = value 16 ds -> hex_text w v.
Proof. intros. exists ds. auto. Qed.
Lemma dec_t : forall w ds v, Forall2 decd w ds -> v = value 10 ds -> dec_text w v.
Proof. intros. exists ds. auto. Qed.
Ltac digits := repeat (apply Forall2_cons; [unfold hexd, decd; lia|]); apply Forall2_nil.

(** * C73: the pattern of the grammar *)
(** /(?<a>x)|[^a-f]{2,}?\1/ *)
Definition src_w : list Z :=
  [40; 63; 60; 97; 62; 120; 41; 124; 91; 94; 97; 45; 102; 93; 123; 50; 44; 125; 63; 92; 49].
Definition pat_w : pattern :=
  [[Term (AGroup 1 [[Term (AChar (CNormal 120)) 1 (Some 1%nat) 2 2 true]]) 1 (Some 1%nat) 1 2 true];
   [Term (AClass true [CRange 97 102]) 2 None 2 2 false; Term (ABack 1) 1 (Some 1%nat) 2 2 true]].
Example C73_witness : valid false false false (tables_of (penv0 false false 0)) src_w pat_w (G 2 [[97]] [[97]] [1]) /\
  exists st, parse (penv0 false false 0) src_w = POk (pat_w, st).
Proof.
  split; [|eexists; vm_compute; reflexivity]. split; [|split; [repeat constructor|apply incl_refl]].
  apply (g_or _ _ _ _ _ _ [40; 63; 60; 97; 62; 120; 41] _ (G 2 [[97]] [[97]] []) [91; 94; 97; 45; 102; 93; 123; 50; 44; 125; 63; 92; 49]).
  - apply (g_term _ _ _ _ _ _ [40; 63; 60; 97; 62; 120; 41] _ (G 2 [[97]] [[97]] []) []); [|constructor].
    apply (g_atom _ _ _ _ (G 1 [] [] []) _ [40; 63; 60; 97; 62; 120; 41] _ (G 2 [[97]] [[97]] []) []); [|constructor].
    apply (a_named _ _ _ _ (G 1 [] [] []) _ [60; 97; 62] [97] 0 [[97]] [120]).
    + apply (gn _ _ _ [97] 97 [] []); [constructor|reflexivity|constructor].
    + cbn. tauto.
    + right. cbn. tauto.
    + apply g_last. apply (g_term _ _ _ _ _ _ [120] _ (G 2 [[97]] [[97]] []) []); [|constructor].
      apply (g_atom _ _ _ _ (G 2 [[97]] [[97]] []) _ [120] _ (G 2 [[97]] [[97]] []) []); [|constructor].
      apply a_char; [lia|]. unfold syntax. cbn. lia.
  - apply g_last.
    apply (g_term _ _ _ _ _ _ [91; 94; 97; 45; 102; 93; 123; 50; 44; 125; 63] _ (G 2 [[97]] [[97]] []) [92; 49]).
    + apply (g_atom _ _ _ _ (G 2 [[97]] [[97]] []) _ [91; 94; 97; 45; 102; 93] _ (G 2 [[97]] [[97]] []) [123; 50; 44; 125; 63]).
      * apply a_class. apply (c_neg _ _ _ _ [97; 45; 102]).
        apply (c_range _ _ _ _ [97] 97 [102] 102 []); [constructor; lia|constructor; lia|lia|constructor].
      * apply (q_lazy _ [123; 50; 44; 125]). apply (q_min _ [50] 2); [discriminate| |right; lia].
        apply (dec_t [50] [2]); [digits|reflexivity].
    + apply (g_term _ _ _ _ _ _ [92; 49] _ (G 2 [[97]] [[97]] [1]) []); [|constructor].
      apply (g_atom _ _ _ _ (G 2 [[97]] [[97]] []) _ [92; 49] _ (G 2 [[97]] [[97]] [1]) []); [|constructor].
      apply (a_back _ _ _ _ (G 2 [[97]] [[97]] []) _ [49] 1); [discriminate|cbn; lia| |cbn; tauto|right; lia].
      apply (dec_t [49] [1]); [digits|reflexivity].
Qed.
(** a text of the grammar is accepted, with the tree of its derivation *)
Theorem C73_grammar : forall P w p s, ascii_tables (tables_of P) ->
  valid (p_u P) (p_n P) false (tables_of P) w p s ->
  exists st, parse P w = POk (p, st) /\ s_groups st = g_next s /\ map fst (s_names st) = g_names s.
Proof. exact parse_ok. Qed.
Print Assumptions C73_grammar.

(** the second pass changes nothing: what is derived without \k is derived with it *)
Lemma more_n : forall u wh T,
  (forall s r w p s', gpat u false wh T s r w p s' -> gpat u true wh T s r w p s') /\
  (forall s r w p s', galt u false wh T s r w p s' -> galt u true wh T s r w p s') /\
  (forall s r w p s', gterm u false wh T s r w p s' -> gterm u true wh T s r w p s') /\
  (forall s r w p s', gassert u false wh T s r w p s' -> gassert u true wh T s r w p s') /\
  (forall s r w p s', gatom u false wh T s r w p s' -> gatom u true wh T s r w p s').
Proof. intros u wh T. apply grammar_i; intros; try discriminate; solve [econstructor; eauto | eapply g_atom; eauto | eapply g_or; eauto | eapply a_class; eauto | eapply a_esc; eauto | eapply a_back; eauto | eapply a_group; eauto | eapply a_named; eauto]. Qed.
Theorem C73_compile : forall P w p s, ascii_tables (tables_of P) -> p_n P = p_u P ->
  valid (p_u P) (p_n P) false (tables_of P) w p s ->
  exists st, compile P w = POk (p, st) /\ s_groups st = g_next s /\ map fst (s_names st) = g_names s.
Proof.
  intros P w p s At N V. destruct (parse_ok P w p s At V) as (st & E & A & B). unfold compile. rewrite E. cbn [pbind].
  destruct (p_n P) eqn:Pn; cbn [negb andb].
  - exists st. auto.
  - destruct (negb (match s_names st with [] => true | _ => false end)); [|exists st; auto].
    apply parse_ok; auto. destruct V as (Gp & V). split; [|exact V]. cbn. apply more_n. auto.
Qed.
Print Assumptions C73_compile.

(** the grammar gives one tree to a text *)
Theorem C73_one_tree : forall P w p s p' s', ascii_tables (tables_of P) ->
  valid (p_u P) (p_n P) false (tables_of P) w p s -> valid (p_u P) (p_n P) false (tables_of P) w p' s' -> p = p'.
Proof.
  intros P w p s p' s' At V V'.
  destruct (parse_ok P w p s At V) as (st & E & _). destruct (parse_ok P w p' s' At V') as (st' & E' & _). congruence.
Qed.
Print Assumptions C73_one_tree.

Definition one (a : atom) : pattern := [[Term a 1 (Some 1%nat) 1 1 true]].
Lemma valid_one : forall u n T w a, gatom u n true T (G 1 [] [] []) [] w a (G 1 [] [] []) ->
  valid u n true T w (one a) (G 1 [] [] []).
Proof.
  intros u n T w a H. split; [|split; [constructor|apply incl_refl]]. apply g_last. rewrite <- (app_nil_r w).
  apply (g_term _ _ _ _ _ _ w _ (G 1 [] [] []) []); [|constructor]. rewrite <- (app_nil_r w) at 1.
  apply (g_atom _ _ _ _ (G 1 [] [] []) _ w _ (G 1 [] [] []) []); [exact H|constructor].
Qed.
(** /[\w-]/ is rejected *)
Theorem C73_last_dash_refuted :
  valid false false true (tables_of (penv0 false false 0)) [91; 92; 119; 45; 93] (one (AClass false [CItem Cw; CItem (CNormal 45)])) (G 1 [] [] []) /\
  compile (penv0 false false 0) [91; 92; 119; 45; 93] = PErr.
Proof.
  split; [|reflexivity]. apply valid_one. apply a_class. apply (c_pos _ _ _ _ [92; 119; 45]); [cbn; lia|].
  apply (c_one _ _ _ _ [92; 119] Cw [45]); [apply (ca_esc _ _ _ _ [119]); [constructor|auto]| |left; auto].
  apply (c_one _ _ _ _ [45] _ []); [constructor; lia|constructor|right; cbn; tauto].
Qed.
Print Assumptions C73_last_dash_refuted.
(** /[\-]/u is rejected *)
Theorem C73_escaped_dash_refuted :
  valid true true true (tables_of (penv0 true true 0)) [91; 92; 45; 93] (one (AClass false [CItem (CNormal 45)])) (G 1 [] [] []) /\
  compile (penv0 true true 0) [91; 92; 45; 93] = PErr.
Proof.
  split; [|reflexivity]. apply valid_one. apply a_class. apply (c_pos _ _ _ _ [92; 45]); [cbn; lia|].
  apply (c_one _ _ _ _ [92; 45] _ []); [apply ca_dash; auto|constructor|right; cbn; tauto].
Qed.
Print Assumptions C73_escaped_dash_refuted.
(** /[\p{L}]/u: the value of the property is not initialised *)
Theorem C73_class_property_refuted : forall j,
  valid true true true (tables_of (penv0 true true j)) [91; 92; 112; 123; 76; 125; 93] (one (AClass false [CItem (Cp 1 2)])) (G 1 [] [] []) /\
  exists st, compile (penv0 true true j) [91; 92; 112; 123; 76; 125; 93] = POk (one (AClass false [CItem (Cp 1 j)]), st).
Proof.
  intros j. split; [|eexists; reflexivity]. apply valid_one. apply a_class. apply (c_pos _ _ _ _ [92; 112; 123; 76; 125]); [cbn; lia|].
  apply (c_one _ _ _ _ [92; 112; 123; 76; 125] _ []); [|constructor|right; cbn; tauto].
  apply (ca_esc _ _ _ _ [112; 123; 76; 125]); [|auto]. apply (e_p _ _ _ _ [76]); [reflexivity|]. apply p_name; [|reflexivity].
  constructor; [left; right; lia|constructor].
Qed.
Print Assumptions C73_class_property_refuted.
(** /\ud83d\u{61}/u is rejected *)
Theorem C73_lead_escape_refuted :
  valid true true true (tables_of (penv0 true true 0)) [92; 117; 100; 56; 51; 100; 92; 117; 123; 54; 49; 125]
    [[Term (AChar (CNormal 0xd83d)) 1 (Some 1%nat) 1 1 true; Term (AChar (CNormal 0x61)) 1 (Some 1%nat) 1 1 true]] (G 1 [] [] []) /\
  compile (penv0 true true 0) [92; 117; 100; 56; 51; 100; 92; 117; 123; 54; 49; 125] = PErr.
Proof.
  split; [|reflexivity]. split; [|split; [constructor|apply incl_refl]]. apply g_last.
  apply (g_term _ _ _ _ _ _ [92; 117; 100; 56; 51; 100] _ (G 1 [] [] []) [92; 117; 123; 54; 49; 125]).
  - apply (g_atom _ _ _ _ (G 1 [] [] []) _ [92; 117; 100; 56; 51; 100] _ (G 1 [] [] []) []); [|constructor].
    apply (a_esc _ _ _ _ (G 1 [] [] []) _ [117; 100; 56; 51; 100]). apply (e_uu _ _ _ _ [100; 56; 51; 100]); [reflexivity|].
    apply u_one; [reflexivity|apply (hex_t _ [13; 8; 3; 13]); [digits|reflexivity]|]. intros _. right. right. split; auto. eexists. reflexivity.
  - apply (g_term _ _ _ _ _ _ [92; 117; 123; 54; 49; 125] _ (G 1 [] [] []) []); [|constructor].
    apply (g_atom _ _ _ _ (G 1 [] [] []) _ [92; 117; 123; 54; 49; 125] _ (G 1 [] [] []) []); [|constructor].
    apply (a_esc _ _ _ _ (G 1 [] [] []) _ [117; 123; 54; 49; 125]). apply (e_uu _ _ _ _ [123; 54; 49; 125]); [reflexivity|].
    apply (u_code _ _ [54; 49]); [discriminate|apply (hex_t _ [6; 1]); [digits|reflexivity]|lia].
Qed.
Print Assumptions C73_lead_escape_refuted.
(** /(?<a>x)\k<\u{61}>/: the first pass, that reads \k as k, fails at the \u *)
Definition src_k : list Z := [40; 63; 60; 97; 62; 120; 41; 92; 107; 60; 92; 117; 123; 54; 49; 125; 62].
Theorem C73_escaped_name_refuted :
  valid false true true (tables_of (penv0 false false 0)) src_k
    [[Term (AGroup 1 [[Term (AChar (CNormal 120)) 1 (Some 1%nat) 2 2 true]]) 1 (Some 1%nat) 1 2 true;
      Term (AName 0) 1 (Some 1%nat) 2 2 true]] (G 2 [[97]] [[97]] []) /\
  compile (penv0 false false 0) src_k = PErr /\
  exists st, parse (penv0 false true 0) src_k = POk
    ([[Term (AGroup 1 [[Term (AChar (CNormal 120)) 1 (Some 1%nat) 2 2 true]]) 1 (Some 1%nat) 1 2 true;
      Term (AName 0) 1 (Some 1%nat) 2 2 true]], st).
Proof.
  split; [|split; [reflexivity|eexists; reflexivity]]. split; [|split; [constructor|apply incl_refl]]. apply g_last.
  apply (g_term _ _ _ _ _ _ [40; 63; 60; 97; 62; 120; 41] _ (G 2 [[97]] [[97]] []) [92; 107; 60; 92; 117; 123; 54; 49; 125; 62]).
  - apply (g_atom _ _ _ _ (G 1 [] [] []) _ [40; 63; 60; 97; 62; 120; 41] _ (G 2 [[97]] [[97]] []) []); [|constructor].
    apply (a_named _ _ _ _ (G 1 [] [] []) _ [60; 97; 62] [97] 0 [[97]] [120]).
    + apply (gn _ _ _ [97] 97 [] []); [constructor|reflexivity|constructor].
    + cbn. tauto.
    + right. cbn. tauto.
    + apply g_last. apply (g_term _ _ _ _ _ _ [120] _ (G 2 [[97]] [[97]] []) []); [|constructor].
      apply (g_atom _ _ _ _ (G 2 [[97]] [[97]] []) _ [120] _ (G 2 [[97]] [[97]] []) []); [|constructor].
      apply a_char; [lia|]. unfold syntax. cbn. lia.
  - apply (g_term _ _ _ _ _ _ [92; 107; 60; 92; 117; 123; 54; 49; 125; 62] _ (G 2 [[97]] [[97]] []) []); [|constructor].
    apply (g_atom _ _ _ _ (G 2 [[97]] [[97]] []) _ [92; 107; 60; 92; 117; 123; 54; 49; 125; 62] _ (G 2 [[97]] [[97]] []) []); [|constructor].
    apply (a_name _ _ _ _ (G 2 [[97]] [[97]] []) _ [60; 92; 117; 123; 54; 49; 125; 62] [97] 0 [[97]]); [reflexivity| |left; auto].
    apply (gn _ _ _ [92; 117; 123; 54; 49; 125] 97 [] []); [|reflexivity|constructor].
    apply (n_esc _ _ [123; 54; 49; 125]). apply (u_code _ _ [54; 49]); [discriminate|apply (hex_t _ [6; 1]); [digits|reflexivity]|lia].
Qed.
Print Assumptions C73_escaped_name_refuted.
(** /a{9999999999999999999}/ and the invalid /\9999999999/: overflow; /\p{U+0100}/u: isalpha *)
Theorem C73_overflow_refuted :
  (exists p, valid false false true (tables_of (penv0 false false 0)) ([97; 123] ++ repeat 57 19 ++ [125]) p (G 1 [] [] [])) /\
  compile (penv0 false false 0) ([97; 123] ++ repeat 57 19 ++ [125]) = PUB /\
  compile (penv0 false false 0) (92 :: repeat 57 10) = PUB /\
  compile (penv0 true true 0) [92; 112; 123; 0x100; 125] = PUB.
Proof.
  split; [|split; [vm_compute; reflexivity|split; vm_compute; reflexivity]].
  exists [[Term (AChar (CNormal 97)) (Z.to_nat (value 10 (repeat 9 19))) (Some (Z.to_nat (value 10 (repeat 9 19)))) 1 1 true]].
  split; [|split; [constructor|apply incl_refl]]. apply g_last.
  apply (g_term _ _ _ _ _ _ ([97; 123] ++ repeat 57 19 ++ [125]) _ (G 1 [] [] []) []); [|constructor].
  apply (g_atom _ _ _ _ (G 1 [] [] []) _ [97] _ (G 1 [] [] []) (123 :: repeat 57 19 ++ [125])).
  - apply a_char; [lia|]. unfold syntax. cbn. lia.
  - apply q_greedy. apply (q_n _ (repeat 57 19)); [discriminate| |left; reflexivity].
    apply (dec_t _ (repeat 9 19)); [|reflexivity]. cbn [repeat]. digits.
Qed.
Print Assumptions C73_overflow_refuted.
(** without u the characters of a pattern are code units: the pair of U+1F600 is two
    characters; the code reads one, that no unit is *)
Theorem C73_pair_refuted :
  valid false false true (tables_of (penv0 false false 0)) [0xd83d; 0xde00]
    [[Term (AChar (CNormal 0xd83d)) 1 (Some 1%nat) 1 1 true; Term (AChar (CNormal 0xde00)) 1 (Some 1%nat) 1 1 true]] (G 1 [] [] []) /\
  exists st, compile (penv0 false false 0) (code_points [0xd83d; 0xde00]) = POk (one (AChar (CNormal 0x1f600)), st).
Proof.
  split; [|eexists; reflexivity]. split; [|split; [constructor|apply incl_refl]]. apply g_last.
  apply (g_term _ _ _ _ _ _ [0xd83d] _ (G 1 [] [] []) [0xde00]).
  - apply (g_atom _ _ _ _ (G 1 [] [] []) _ [0xd83d] _ (G 1 [] [] []) []); [|constructor]. apply a_char; [lia|]. unfold syntax. cbn. lia.
  - apply (g_term _ _ _ _ _ _ [0xde00] _ (G 1 [] [] []) []); [|constructor].
    apply (g_atom _ _ _ _ (G 1 [] [] []) _ [0xde00] _ (G 1 [] [] []) []); [|constructor]. apply a_char; [lia|]. unfold syntax. cbn. lia.
Qed.
Print Assumptions C73_pair_refuted.

(** * C74: what the parser gives to the matcher *)
Example C74_witness : exists st, compile (penv0 false false 0) src_w = POk (pat_w, st) /\ s_groups st = 2%nat /\
  names_of st 7 = [7; 0].
Proof. eexists. vm_compute. repeat split; reflexivity. Qed.
Theorem C74_ends : forall P s, compile P s <> PFuel.
Proof. exact compile_total. Qed.
Print Assumptions C74_ends.
(** the groups of the tree are numbered by their opening parentheses up to the number of groups, each
    back reference is to one of them, the name indices are in the table of names, and
    each group but the first has an entry in the table of group names *)
Theorem C74_tree : forall P s p st first, compile P s = POk (p, st) ->
  well_numbered p (s_groups st) /\ forallb (forallb (refs_term (s_groups st) (length (s_names st)))) p = true /\
  length (names_of st first) = s_groups st /\
  (forall k, (1 <= k < s_groups st)%nat -> -1 <= nth k (names_of st first) 0 < Z.of_nat (length (s_names st))).
Proof.
  intros P s p st first H.
  assert (K : exists Q, parse Q s = POk (p, st)).
  { unfold compile in H. apply pbind_inv in H. destruct H as ([p' st'] & E & H).
    destruct (negb (p_n P) && negb (match s_names st' with [] => true | _ => false end)); [eauto|]. injection H as <- <-. eauto. }
  destruct K as (Q & K). destruct (parse_fine _ _ _ _ K) as (A & B & C & D & E).
  split; auto. split; auto. unfold names_of. cbn [length]. rewrite map_length. split; [lia|].
  intros k Hk. destruct k as [|k]; [lia|]. cbn [nth].
  rewrite (nth_indep _ 0 (fst (0, @nil (nat * nat)))) by (rewrite map_length; lia). rewrite map_nth.
  rewrite Forall_forall in E. apply E. apply nth_In. lia.
Qed.
Print Assumptions C74_tree.
(** every pattern that is compiled runs within its arrays *)
Theorem C74_run : forall P s p st E i m fuel, compile P s = POk (p, st) -> group_num E = s_groups st ->
  Forall code_unit (str E) -> (one_unit E \/ forallb (forallb no_back_t) p = true) -> (i <= text_len E)%nat ->
  run E fuel (start E p (place E i) m) <> Some Bad.
Proof.
  intros P s p st E i m fuel H Hg U Fl Hi. destruct (C74_tree P s p st 0 H) as (W & _).
  apply C69_never_bad; auto. rewrite Hg. auto.
Qed.
Print Assumptions C74_run.

(** * C75: flags and source *)
Example C75_witness : flags [] [103; 105; 117] = Some [103; 105; 117] /\ flags [] [103; 105; 103] = None /\
  gen_source [97; 47; 98] = [97; 92; 47; 98] /\
  exists st st', compile (penv0 false false 0) [97; 47; 98] = POk (fst st, st') /\
    compile (penv0 false false 0) (gen_source [97; 47; 98]) = POk (fst st, snd st).
Proof.
  repeat (split; [reflexivity|]). eexists (_, _), _. split; [vm_compute; reflexivity|]. vm_compute. reflexivity.
Qed.
(** d, g, i, m, s, u, y, each at most once *)
Theorem C75_flags : forall f, (exists l, flags [] f = Some l) <-> NoDup f /\ incl f [100; 103; 105; 109; 115; 117; 121].
Proof.
  assert (G : forall f acc, (exists l, flags acc f = Some l) <->
    NoDup f /\ incl f [100; 103; 105; 109; 115; 117; 121] /\ (forall c, In c f -> ~ In c acc)).
  { induction f as [|c f IH]; intros acc; cbn [flags].
    - split; [intros _|eauto]. split; [constructor|]. split; [intros ? []|]. intros ? [].
    - destruct (existsb (Z.eqb c) [100; 103; 105; 109; 115; 117; 121]) eqn:E.
      + apply existsb_exists in E. destruct E as (d & D & Q). apply Z.eqb_eq in Q. subst d.
        destruct (existsb (Z.eqb c) acc) eqn:A.
        * apply existsb_exists in A. destruct A as (d & D' & Q). apply Z.eqb_eq in Q. subst d.
          split; [intros (l & K); discriminate|]. intros (_ & _ & K). exfalso. apply (K c); cbn; auto.
        * assert (Na : ~ In c acc).
          { intros K. assert (existsb (Z.eqb c) acc = true); [|congruence]. apply existsb_exists. exists c. split; auto. apply Z.eqb_refl. }
          rewrite IH. split.
          -- intros (N & I & K). split.
             ++ constructor; auto. intros J. apply (K c J). apply in_or_app. cbn. auto.
             ++ split; [intros x [<-|Hx]; auto|]. intros x [<-|Hx]; auto. intros J. apply (K x Hx). apply in_or_app. auto.
          -- intros (N & I & K). inversion N; subst. split; auto. split; [intros x Hx; apply I; right; auto|].
             intros x Hx J. apply in_app_or in J. destruct J as [J|[<-|[]]]; [|contradiction]. apply (K x); cbn; auto.
      + split; [intros (l & K); discriminate|]. intros (_ & I & _). specialize (I c (or_introl eq_refl)).
        assert (existsb (Z.eqb c) [100; 103; 105; 109; 115; 117; 121] = true); [|congruence].
        apply existsb_exists. exists c. split; auto. apply Z.eqb_refl. }
  intros f. rewrite G. split; [intros (A & B & _); auto|]. intros (A & B). split; auto.
Qed.
Print Assumptions C75_flags.
(** the source has no line feed and no carriage return; it is the text itself if it is not empty and has
    no / and none of these *)
Theorem C75_source : forall s, ~ In 10 (gen_source s) /\ ~ In 13 (gen_source s) /\ gen_source s <> [] /\
  (s <> [] -> ~ In 10 s -> ~ In 13 s -> ~ In 47 s -> gen_source s = s).
Proof.
  intros s.
  assert (A : forall c l, c = 10 \/ c = 13 -> ~ In c (flat_map (fun c => if c =? 10 then [92; 110] else if c =? 13 then [92; 114] else if c =? 47 then [92; 47] else [c]) l)).
  { intros c l Hc. induction l as [|a l IH]; cbn; [tauto|]. intros K. apply in_app_or in K. destruct K as [K|K]; [|auto].
    destruct (a =? 10) eqn:E1; [cbn in K; lia|]. destruct (a =? 13) eqn:E2; [cbn in K; lia|].
    destruct (a =? 47) eqn:E3; cbn in K; lia. }
  destruct s as [|c s].
  - cbn. split; [lia|]. split; [lia|]. split; [discriminate|]. congruence.
  - split; [apply A; auto|]. split; [apply A; auto|]. split.
    + cbn. destruct (c =? 10); [discriminate|]. destruct (c =? 13); [discriminate|]. destruct (c =? 47); discriminate.
    + intros _ N1 N2 N3. unfold gen_source. generalize dependent (c :: s). clear. induction l as [|a l IH]; auto.
      intros N1 N2 N3. cbn in *. replace (a =? 10) with false by lia. replace (a =? 13) with false by lia. replace (a =? 47) with false by lia.
      cbn. f_equal. apply IH; tauto.
Qed.
Print Assumptions C75_source.
(** the source of /\// is \\/, the pattern of a backslash and a slash; U+2028 stays as it is *)
Theorem C75_source_refuted :
  gen_source [92; 47] = [92; 92; 47] /\
  (exists st st', compile (penv0 false false 0) [92; 47] = POk (one (AChar (CNormal 47)), st) /\
    compile (penv0 false false 0) (gen_source [92; 47]) =
      POk ([[Term (AChar (CNormal 92)) 1 (Some 1%nat) 1 1 true; Term (AChar (CNormal 47)) 1 (Some 1%nat) 1 1 true]], st')) /\
  gen_source [0x2028] = [0x2028].
Proof. split; [reflexivity|]. split; [eexists _, _; split; reflexivity|reflexivity]. Qed.
Print Assumptions C75_source_refuted.
