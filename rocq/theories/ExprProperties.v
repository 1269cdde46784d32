(** Properties C100-C102: reading expressions. *)
From Coq Require Import List Bool Arith String Lia.
From Verif Require Import ExprModel ExprSpec ExprFuel ExprGrammar ExprComplete ExprSound ExprValue.
Import ListNotations.
Local Open Scope string_scope.
Local Open Scope list_scope.

(** For the examples. *)
Fixpoint nopairb (P : tok -> tok -> bool) (w : list tok) : bool :=
  match w with
  | u :: ((v :: _) as w') => negb (P u v) && nopairb P w'
  | _ => true
  end.
Lemma nopairb_ok P w : nopairb P w = true -> nopair P w.
Proof.
  intros H x. revert w H. induction x as [|a x IH]; intros w H u v y E0; subst w.
  - cbn in H. apply andb_true_iff in H. destruct (P u v); [destruct H; discriminate|reflexivity].
  - apply (IH (x ++ u :: v :: y)) with (y := y); [|reflexivity].
    cbn [app nopairb] in H. destruct (x ++ u :: v :: y); [reflexivity|].
    apply andb_true_iff in H. apply H.
Qed.
Lemma not_in (P : tok -> bool) t w : P t = true -> existsb P w = false -> ~ In t w.
Proof.
  intros Ht Hw Hi. assert (existsb P w = true) by (apply existsb_exists; eauto). congruence.
Qed.
Definition is_delete (t : tok) := match t with Tkw Kdelete => true | _ => false end.
Definition is_new (t : tok) := match t with Tkw Knew => true | _ => false end.
Lemma plain_acceptb strict w :
  nopairb new_new w && nopairb new_super w && negb (existsb is_delete w) = true -> plain_accept strict w.
Proof.
  intros H0. apply andb_true_iff in H0. destruct H0 as [H0 H3].
  apply andb_true_iff in H0. destruct H0 as [H1 H2].
  split; [apply nopairb_ok, H1|]. split; [apply nopairb_ok, H2|].
  intros _. left. apply (not_in is_delete); [reflexivity|apply negb_true_iff, H3].
Qed.
Lemma plain_onlyb w :
  nopairb new_new w && nopairb comma_paren w && nopairb const_op w && negb (existsb is_new w) = true ->
  plain_only w.
Proof.
  intros H0. apply andb_true_iff in H0. destruct H0 as [H0 H4].
  apply andb_true_iff in H0. destruct H0 as [H0 H3].
  apply andb_true_iff in H0. destruct H0 as [H1 H2].
  split; [apply nopairb_ok, H1|]. split; [apply nopairb_ok, H2|]. split; [apply nopairb_ok, H3|].
  left. apply (not_in is_new); [reflexivity|apply negb_true_iff, H4].
Qed.
Ltac plain := first [apply plain_acceptb; reflexivity | apply plain_onlyb; reflexivity].

(** * C100: every expression of the grammar is accepted, with its tree *)
Theorem C100_expression_accepted strict i t w rest :
  G strict i NExpr t w -> plain_accept strict w -> ends i rest ->
  parse_expr strict i (w ++ rest) = Ok (fold t) rest.
Proof. exact (parse_complete strict i t w rest). Qed.
Print Assumptions C100_expression_accepted.

(** The parser always gives an answer. *)
Theorem C100_parser_answers strict i s : parse_expr strict i s <> Out.
Proof. exact (parse_expr_total strict i s). Qed.
Print Assumptions C100_parser_answers.

(** No token list has two trees. *)
Theorem C100_tree_unique strict i t u w :
  G strict i NExpr t w -> G strict i NExpr u w -> plain_accept strict w -> nopair const_op w -> t = u.
Proof. exact (parse_unique strict i t u w). Qed.
Print Assumptions C100_tree_unique.

Ltac up := repeat (eapply g_unit; [constructor|]).

(** a - b - c ** d ** e ? f = 1 : g?.h(i, ...j)
    : left associative minus, right associative power. *)
Example C100_witness :
  let w := [Tid "a"; Tminus; Tid "b"; Tminus; Tid "c"; Tbin Oexp; Tid "d"; Tbin Oexp; Tid "e"] in
  let t := Bin Osub (Bin Osub (Id "a") (Id "b"))
             (Bin Oexp (Id "c") (Bin Oexp (Id "d") (Id "e"))) in
  G false true NExpr t w /\ plain_accept false w /\ parse_expr false true (w ++ [Trp]) = Ok t [Trp].
Proof.
  cbv zeta. split; [|split; [plain|vm_compute; reflexivity]].
  assert (ID : forall x n, n = NMul \/ n = NUpdate \/ n = NExp -> G false true n (Id x) [Tid x]).
  { intros x n [->|[->| ->]].
    - do 4 (eapply g_unit; [constructor|]). eapply g_unit; [apply u_lhs1|]. up. constructor. constructor.
    - do 1 (eapply g_unit; [constructor|]). eapply g_unit; [apply u_lhs1|]. up. constructor. constructor.
    - do 3 (eapply g_unit; [constructor|]). eapply g_unit; [apply u_lhs1|]. up. constructor. constructor. }
  apply (g_expr false true [_]), e_one.
  do 2 (eapply g_unit; [constructor|]). eapply g_unit; [apply u_short1|].
  do 8 (eapply g_unit; [constructor|]).
  apply (g_left false true Osub NAdd NMul (Bin Osub (Id "a") (Id "b")) _ [Tid "a"; Tminus; Tid "b"]
    [Tid "c"; Tbin Oexp; Tid "d"; Tbin Oexp; Tid "e"]); [reflexivity|discriminate| |].
  - apply (g_left false true Osub NAdd NMul (Id "a") (Id "b") [Tid "a"] [Tid "b"]); [reflexivity|discriminate| |].
    + eapply g_unit; [constructor|]. apply ID. auto.
    + apply ID. auto.
  - eapply g_unit; [constructor|].
    apply (g_exp false true (Id "c") _ [Tid "c"] [Tid "d"; Tbin Oexp; Tid "e"]); [apply ID; auto|].
    apply (g_exp false true (Id "d") (Id "e") [Tid "d"] [Tid "e"]); apply ID; auto.
Qed.

(** Without the condition the claim is false: the operand of `new' cannot begin
    with `super'; in `new new X()()' the outer `new' gets no arguments; a
    strict `delete' of an optional chain is rejected. *)
Theorem C100_new_super_refuted :
  exists t w, G false true NExpr t w /\ parse_expr false true w = Err.
Proof.
  exists (New (SuperMember (Pid "x")) []), [Tkw Knew; Tkw Ksuper; Tdot; Tid "x"; Tlp; Trp].
  split; [|vm_compute; reflexivity].
  apply (g_expr false true [_]), e_one.
  do 2 (eapply g_unit; [constructor|]). eapply g_unit; [apply u_short1|].
  do 13 (eapply g_unit; [constructor|]). eapply g_unit; [apply u_lhs1|]. eapply g_unit; [constructor|].
  apply (g_new_args false true (SuperMember (Pid "x")) [] [Tkw Ksuper; Tdot; Tid "x"] [Trp]).
  - apply (g_super_name false true (Pid "x")).
  - apply a_nil.
Qed.
Print Assumptions C100_new_super_refuted.

Theorem C100_new_new_refuted :
  exists t u w, G false true NExpr t w /\ fold t = t /\ parse_expr false true w = Ok u [] /\ u <> t.
Proof.
  exists (New (New (Id "X") []) []), (Call (New (New (Id "X") []) []) []),
    [Tkw Knew; Tkw Knew; Tid "X"; Tlp; Trp; Tlp; Trp].
  split; [|split; [reflexivity|split; [vm_compute; reflexivity|discriminate]]].
  apply (g_expr false true [_]), e_one.
  do 2 (eapply g_unit; [constructor|]). eapply g_unit; [apply u_short1|].
  do 13 (eapply g_unit; [constructor|]). eapply g_unit; [apply u_lhs1|]. eapply g_unit; [constructor|].
  apply (g_new_args false true (New (Id "X") []) [] [Tkw Knew; Tid "X"; Tlp; Trp] [Trp]); [|apply a_nil].
  apply (g_new_args false true (Id "X") [] [Tid "X"] [Trp]); [|apply a_nil].
  eapply g_unit; [constructor|]. apply g_atom. constructor.
Qed.
Print Assumptions C100_new_new_refuted.

Theorem C100_delete_chain_refuted :
  exists t w, G true true NExpr t w /\ parse_expr true true w = Err.
Proof.
  exists (Un Udelete (Opt (Member (OptBase (Id "a")) (Pid "b")))), [Tkw Kdelete; Tid "a"; Tqdot; Tid "b"].
  split; [|vm_compute; reflexivity].
  apply (g_expr true true [_]), e_one.
  do 2 (eapply g_unit; [constructor|]). eapply g_unit; [apply u_short1|].
  do 11 (eapply g_unit; [constructor|]).
  apply (g_unary true true Udelete _ [Tid "a"; Tqdot; Tid "b"]).
  - do 2 (eapply g_unit; [constructor|]). eapply g_unit; [apply u_lhs3|].
    apply (g_opt true true NMember (Id "a") _ [Tid "a"] [Tqdot; Tid "b"]); [tauto| |].
    + eapply g_unit; [constructor|]. apply g_atom. constructor.
    + apply (h_name true (Id "a") (Pid "b")).
  - intros _ _ Hd. inversion Hd.
Qed.
Print Assumptions C100_delete_chain_refuted.

(** * C101: only expressions of the grammar are accepted *)
Theorem C101_only_expressions strict i s a rest :
  parse_expr strict i s = Ok a rest ->
  exists w, s = w ++ rest /\ (plain_only w -> G strict i NExpr a w).
Proof. exact (parse_sound strict i s a rest). Qed.
Print Assumptions C101_only_expressions.

Theorem C101_parser_exact strict i t w :
  plain_accept strict w -> plain_only w ->
  (parse_expr strict i w = Ok t [] <-> G strict i NExpr t w).
Proof. exact (parse_exact strict i t w). Qed.
Print Assumptions C101_parser_exact.

Example C101_witness :
  let s := [Tid "a"; Tbin Oques; Tid "b"; Tbin Oor; Tid "c"] in
  let w := [Tid "f"; Tlp; Tid "x"; Tas Aplain; Tid "y"; Tarrow false; Tid "z"; Tcomma; Tdots; Tid "v"; Trp; Tdot; Tid "p"] in
  plain_only w /\ parse_expr true true w =
    Ok (Member (Call (Id "f") [Arg (Assign Aplain (Id "x") (Arrow "y" (Id "z"))); Spread (Id "v")]) (Pid "p")) [] /\
  (* `??' does not mix with `||' *)
  parse_expr true true s = Ok (Bin Oques (Id "a") (Id "b")) [Tbin Oor; Tid "c"] /\
  (* neither is a unary operator the base of `**' *)
  parse_expr true true [Tminus; Tid "a"; Tbin Oexp; Tid "b"] = Ok (Un Uneg (Id "a")) [Tbin Oexp; Tid "b"].
Proof. cbv zeta. split; [plain|]. vm_compute. auto. Qed.

(** Without the condition the claim is false: parentheses may end with a comma;
    `new' takes an optional chain. *)
Theorem C101_trailing_comma_refuted :
  exists s a, parse_expr false true s = Ok a [] /\ forall t, ~ G false true NExpr t s.
Proof.
  exists [Tlp; Tid "a"; Tcomma; Trp], (Parens (Id "a")). split; [vm_compute; reflexivity|].
  intros t HG.
  assert (HP : plain_accept false [Tlp; Tid "a"; Tcomma; Trp]) by plain.
  pose proof (parse_complete _ _ _ _ [] HG HP I) as E0.
  rewrite (fold_id _ _ _ _ _ HG) in E0 by (apply nopairb_ok; reflexivity).
  vm_compute in E0. injection E0 as <-.
  apply expr_inv in HG; [|reflexivity].
  destruct (parens_inv _ _ _ _ _ HG ltac:(discriminate) _ eq_refl) as (es & w' & HE & Hs & Ew).
  injection Ew as Ew.
  assert (Hw : w' = [Tid "a"; Tcomma]).
  { apply (app_inj_tail w' [Tid "a"; Tcomma] Trp Trp). symmetry. exact Ew. }
  subst w'.
  pose proof (g_expr _ _ _ _ HE) as HX. rewrite Hs in HX.
  destruct (lit_token _ _ _ _ _ HX eq_refl) as (k & Hk & _). discriminate Hk.
Qed.
Print Assumptions C101_trailing_comma_refuted.

Theorem C101_new_chain_refuted :
  exists s a, parse_expr false true s = Ok a [] /\ forall t, ~ G false true NExpr t s.
Proof.
  exists [Tkw Knew; Tid "a"; Tqdot; Tid "b"], (New (Opt (Member (OptBase (Id "a")) (Pid "b"))) []).
  split; [vm_compute; reflexivity|]. intros t HG.
  assert (HP : plain_accept false [Tkw Knew; Tid "a"; Tqdot; Tid "b"]) by plain.
  pose proof (parse_complete _ _ _ _ [] HG HP I) as E0.
  rewrite (fold_id _ _ _ _ _ HG) in E0 by (apply nopairb_ok; reflexivity).
  vm_compute in E0. injection E0 as <-.
  apply expr_inv in HG; [|reflexivity].
  exact (new_opt_no _ _ _ _ _ HG ltac:(discriminate)).
Qed.
Print Assumptions C101_new_chain_refuted.

(** * C102: the simplification of constant operands keeps values *)
Theorem C102_values_kept
  (V : Type) (truthy isnull : V -> bool) (c_val : bool -> nat -> V)
  (c_zero c_one c_true c_false c_null c_undef typeof_undef : V)
  (vbin : binop -> V -> V -> option V) (vun : unop -> V -> option V) :
  (forall b n, truthy (c_val b n) = b) -> truthy c_true = true -> truthy c_false = false ->
  truthy c_null = false -> isnull c_null = true -> isnull c_undef = true ->
  forall t m, simple_value t -> m "undefined" = Some c_undef ->
  value V truthy isnull c_val c_zero c_one c_true c_false c_null typeof_undef vbin vun (fold t) m =
  value V truthy isnull c_val c_zero c_one c_true c_false c_null typeof_undef vbin vun t m.
Proof.
  intros H1 H2 H3 H4 H5 H6 t m Ht Hm.
  exact (proj1 (fold_value V truthy isnull c_val c_zero c_one c_true c_false c_null c_undef
    typeof_undef vbin vun H1 H2 H3 H4 H5 H6 t Ht m Hm)).
Qed.
Print Assumptions C102_values_kept.

(** A toy instance: numbers, with 0 false, 9 for null and 8 for undefined. *)
Definition toy (t : tree) (m : store nat) :=
  value nat (fun v => negb (Nat.eqb v 0 || Nat.leb 8 v)) (fun v => Nat.leb 8 v)
    (fun b n => if b then 1 else 0) 0 1 1 0 9 7
    (fun o a b => match o with Oadd => Some (a + b) | _ => None end) (fun u a => Some a) t m.

Example C102_witness :
  let t := Cond (Bin Oand True_ (Bin Oor False_ (Id "x"))) (Assign Aplain (Id "y") (Bin Oques Null (Id "x")))
             (Bin Oadd One One) in
  let m := put nat (put nat (fun _ => None) "x" 5) "undefined" 8 in
  simple_value t /\ fold t = Cond (Id "x") (Assign Aplain (Id "y") (Id "x")) (Bin Oadd One One) /\
  snd (toy t m) = Some 5 /\ fst (toy t m) "y" = Some 5 /\ snd (toy (fold t) m) = Some 5.
Proof.
  cbv zeta. split; [repeat (constructor; try discriminate)|]. vm_compute. auto.
Qed.

(** The receiver a call passes as `this' (13.3.6.1): the object of a property
    reference, also in parentheses. *)
Definition receiver (callee : tree) : option tree :=
  match bare callee with
  | Member o _ | Index o _ | PrivMember o _ => Some o
  | _ => None
  end.

(** Where a reference counts, the simplification shows: (true && o.m)() calls
    with `this' = o, (true && x) = 1 is accepted as an assignment, and
    typeof (true && x) does not throw for an unresolvable x. *)
Theorem C102_receiver_refuted :
  exists c w u, G false true NExpr (Call c []) w /\ receiver c = None /\
    parse_expr false true w = Ok (Call u []) [] /\ receiver u <> None.
Proof.
  exists (Parens (Bin Oand True_ (Member (Id "o") (Pid "m")))),
    [Tlp; Tkw Ktrue; Tbin Oand; Tid "o"; Tdot; Tid "m"; Trp; Tlp; Trp],
    (Parens (Member (Id "o") (Pid "m"))).
  split; [|split; [reflexivity|split; [vm_compute; reflexivity|discriminate]]].
  apply (g_expr false true [_]), e_one.
  do 2 (eapply g_unit; [constructor|]). eapply g_unit; [apply u_short1|].
  do 13 (eapply g_unit; [constructor|]). eapply g_unit; [apply u_lhs2|].
  apply (g_call1 false true _ [] [Tlp; Tkw Ktrue; Tbin Oand; Tid "o"; Tdot; Tid "m"; Trp] [Trp]); [|apply a_nil].
  eapply g_unit; [constructor|].
  apply (g_parens false true [_] [Tkw Ktrue; Tbin Oand; Tid "o"; Tdot; Tid "m"]), e_one.
  do 2 (eapply g_unit; [constructor|]). eapply g_unit; [apply u_short1|]. eapply g_unit; [constructor|].
  apply (g_left false true Oand NLand NBor True_ (Member (Id "o") (Pid "m")) [Tkw Ktrue] [Tid "o"; Tdot; Tid "m"]);
    [reflexivity|discriminate| |].
  - do 12 (eapply g_unit; [constructor|]). eapply g_unit; [apply u_lhs1|].
    do 2 (eapply g_unit; [constructor|]). apply g_atom. constructor.
  - do 11 (eapply g_unit; [constructor|]). eapply g_unit; [apply u_lhs1|].
    do 1 (eapply g_unit; [constructor|]). apply (g_name false true NMember (Id "o") (Pid "m") [Tid "o"]); [tauto|].
    eapply g_unit; [constructor|]. apply g_atom. constructor.
Qed.
Print Assumptions C102_receiver_refuted.

Theorem C102_target_refuted :
  exists l w a, G false true NLhs l w /\ ~ simple false l /\
    parse_expr false true (w ++ [Tas Aplain; Tone]) = Ok a [].
Proof.
  exists (Parens (Cond True_ (Id "x") (Id "y"))),
    [Tlp; Tkw Ktrue; Tques; Tid "x"; Tcolon; Tid "y"; Trp], (Assign Aplain (Id "x") One).
  split; [|split; [intros Hs; inversion Hs; subst; match goal with U : simple _ _ |- _ => inversion U end
                  |vm_compute; reflexivity]].
  eapply g_unit; [apply u_lhs1|]. do 2 (eapply g_unit; [constructor|]).
  apply (g_parens false true [_] [Tkw Ktrue; Tques; Tid "x"; Tcolon; Tid "y"]), e_one.
  eapply g_unit; [constructor|].
  assert (ID : forall x, G false true NAssi (Id x) [Tid x]).
  { intros x. do 2 (eapply g_unit; [constructor|]). eapply g_unit; [apply u_short1|].
    do 13 (eapply g_unit; [constructor|]). eapply g_unit; [apply u_lhs1|].
    do 2 (eapply g_unit; [constructor|]). apply g_atom. constructor. }
  apply (g_cond false true True_ (Id "x") (Id "y") [Tkw Ktrue] [Tid "x"] [Tid "y"]); [|apply ID|apply ID].
  eapply g_unit; [apply u_short1|].
  do 13 (eapply g_unit; [constructor|]). eapply g_unit; [apply u_lhs1|].
  do 2 (eapply g_unit; [constructor|]). apply g_atom. constructor.
Qed.
Print Assumptions C102_target_refuted.

Theorem C102_typeof_refuted :
  exists t m, m "undefined" = Some 8 /\ snd (toy t m) = None /\ snd (toy (fold t) m) <> None.
Proof.
  exists (Un Utypeof (Parens (Bin Oand True_ (Id "x")))), (put nat (fun _ => None) "undefined" 8).
  split; [reflexivity|]. split; [reflexivity|discriminate].
Qed.
Print Assumptions C102_typeof_refuted.
