(** The parser accepts every expression of the grammar. *)
From Coq Require Import List Bool Arith String Lia.
From Verif Require Import ExprModel ExprSpec ExprFuel ExprGrammar.
Import ListNotations.

(** How tightly a token binds to the expression on its left. *)
Definition rank (i : bool) (t : tok) : nat :=
  match t with
  | Tdot | Tlb | Tlp | Ttmpl _ => 23
  | Tqdot => 22
  | Tinc nl | Tdec nl => if nl then 0 else 17
  | Tques => 3
  | Tas _ => 2
  | Tcomma => 1
  | Tarrow _ => 30
  | Tkw Kin => if i then 11 else 0
  | _ => match infix t with Some (_, _, p, _) => p | None => 0 end
  end.

Definition lo (n : nt) : nat :=
  match n with
  | NExpr => 0 | NAssi => 2 | NCond => 3 | NShort => 4 | NCoal => 4 | NLor => 5
  | NLand => 6 | NBor => 7 | NBxor => 8 | NBand => 9 | NEq => 10 | NRel => 11
  | NShift => 12 | NAdd => 13 | NMul => 14 | NExp => 15 | NUnary => 16 | NUpdate => 17
  | _ => 18
  end.

(** Ranks of the tokens that may follow. *)
Definition fo (n : nt) (t : tree) : nat :=
  match n with
  | NExpr => 0 | NAssi => 1 | NCond => 1 | NShort => 3 | NExp => 14
  | NUnary => if simple_target false t then 17 else 14
  | NUpdate => if simple_target false t then 17 else 15
  | NLhs => 17 | NNew => 17 | NOpt => 22
  | NCall | NMember | NPrimary => 23
  | _ => lo n
  end.

Definition follow (i : bool) (n : nt) (t : tree) (rest : list tok) : Prop :=
  match rest with [] => True | k :: _ => rank i k <= fo n t end.
Definition below (i : bool) (q : nat) (rest : list tok) : Prop :=
  match rest with [] => True | t :: _ => rank i t < q end.

Definition new_super_start (w : list tok) : bool :=
  match w with Tkw Knew :: _ | Tkw Ksuper :: _ => true | _ => false end.

Definition okprio (n : nt) (w : list tok) (prio : nat) : Prop :=
  prio <= lo n \/
  ((n = NNew \/ n = NMember \/ n = NPrimary) /\ prio = MEMBER /\ new_super_start w = false).

Lemma mk_bin_fold o l r : mk_bin o (fold l) (fold r) = fold (Bin o l r).
Proof.
  destruct o; cbn [mk_bin fold]; try reflexivity.
  unfold mk_ques, nullish. destruct (fold l); reflexivity.
Qed.
Lemma mk_cond_fold c a b : mk_cond (fold c) (fold a) (fold b) = fold (Cond c a b).
Proof. reflexivity. Qed.

Section Complete.
Variable strict : bool.
Notation fn := (fn strict).

(** One step of the loop. *)
Lemma loop_stop i q lp acc rest :
  below i q rest -> q <= 20 -> floop (fn 1) i q lp acc rest = Ok acc rest.
Proof.
  intros HB Hq. cbn [ExprModel.fn floop]. unfold loop_step. cbv zeta.
  destruct rest as [|t rest]; [reflexivity|]. cbn [below] in HB.
  destruct t; cbn [rank] in HB; try reflexivity; try lia.
  - (* keyword *)
    destruct k; cbn [infix op_allowed negb] in HB |- *; try reflexivity.
    + destruct i; [|reflexivity]. cbn [negb].
      rewrite (proj2 (Nat.ltb_lt _ q) HB), orb_true_r. reflexivity.
    + rewrite (proj2 (Nat.ltb_lt _ q) HB), orb_true_r. reflexivity.
  - rewrite (proj2 (Nat.leb_le 1 q)) by lia. reflexivity.
  - rewrite (proj2 (Nat.ltb_lt _ q) HB), orb_true_r. reflexivity.
  - cbn [infix op_allowed negb] in HB |- *. rewrite (proj2 (Nat.ltb_lt _ q) HB), orb_true_r. reflexivity.
  - cbn [infix op_allowed negb] in HB |- *. rewrite (proj2 (Nat.ltb_lt _ q) HB), orb_true_r. reflexivity.
  - destruct nl; [reflexivity|]. rewrite (proj2 (Nat.ltb_lt _ q) HB), !orb_true_r. reflexivity.
  - destruct nl; [reflexivity|]. rewrite (proj2 (Nat.ltb_lt _ q) HB), !orb_true_r. reflexivity.
  - destruct o; cbn [infix op_allowed negb] in HB |- *; try reflexivity;
      rewrite (proj2 (Nat.ltb_lt _ q) HB), orb_true_r; reflexivity.
  - rewrite (proj2 (Nat.ltb_lt _ q) HB), orb_true_r. reflexivity.
Qed.

Lemma loop_infix f i prio lp acc t s1 o need p q r s2 :
  infix t = Some (o, need, p, q) -> op_allowed i o = true -> left_ok o need lp = true ->
  prio <= p -> fparse (fn f) i q s1 = Ok r s2 ->
  floop (fn (S f)) i prio lp acc (t :: s1) = floop (fn f) i prio p (mk_bin o acc r) s2.
Proof.
  intros Ht Ha Hl Hp Hr. cbn [ExprModel.fn floop]. unfold loop_step. cbv zeta.
  assert (Hb : (p <? prio) = false) by (apply Nat.ltb_ge; exact Hp).
  destruct t; try discriminate Ht; rewrite Ht, Ha, Hl, Hb; cbn [negb orb]; rewrite Hr; reflexivity.
Qed.

(** Statements of the induction. *)
Definition CG i n t w : Prop :=
  plain_accept strict w ->
  exists lp, lo n <= lp /\ (n = NCoal -> lp = QUES) /\
  forall prio rest f a r, okprio n w prio -> follow i n t rest ->
    floop (fn f) i prio lp (fold t) rest = Ok a r ->
    exists f', fparse (fn f') i prio (w ++ rest) = Ok a r.

Definition CE i es w : Prop :=
  plain_accept strict w ->
  (i = true -> forall s, exists f, fparens (fn f) (w ++ Trp :: s) = Ok (map fold es) s) /\
  (forall lp acc rest f a r, follow i NExpr This rest ->
    floop (fn f) i LOWEST COMMA (fold_left mk_comma (map fold es) acc) rest = Ok a r ->
    exists f', floop (fn f') i LOWEST lp acc (Tcomma :: w ++ rest) = Ok a r) /\
  (exists lp, forall rest f a r, follow i NExpr This rest ->
    floop (fn f) i LOWEST lp (fold (seq es)) rest = Ok a r ->
    exists f', fparse (fn f') i LOWEST (w ++ rest) = Ok a r).

Definition CL es w : Prop :=
  plain_accept strict w -> forall has s,
  (exists f, fargs (fn f) has (w ++ Trp :: s) = Ok (map (map_arg fold) es) s) /\
  (exists f, fargs (fn f) has (w ++ Tcomma :: Trp :: s) = Ok (map (map_arg fold) (es ++ [Last])) s).

Definition CA a w : Prop :=
  plain_accept strict w -> forall s,
  exists f, fargs (fn f) false (w ++ s) = Ok (map (map_arg fold) a) s.

Definition CH b t w : Prop :=
  plain_accept strict w -> forall w', w = Tqdot :: w' ->
  forall rest f a r, fchain (fn f) (fold t) false rest = Ok a r ->
  exists f', fchain (fn f') (OptBase (fold b)) true (w' ++ rest) = Ok a r.

Lemma closed i n t w rest :
  CG i n t w -> plain_accept strict w -> n <> NExpr ->
  below i (lo n) rest -> follow i n t rest ->
  exists f, fparse (fn f) i (lo n) (w ++ rest) = Ok (fold t) rest.
Proof.
  intros HC HP Hn HB HF. destruct (HC HP) as (lp & _ & _ & K).
  apply (K _ rest 1 (fold t) rest); [left; lia|exact HF|].
  apply loop_stop; [exact HB|]. destruct n; cbn; lia.
Qed.

(** The expression inside brackets. *)
Lemma closed_expr i n t w k s :
  CG i n t w -> n = NExpr -> plain_accept strict w -> k = Trb ->
  exists f, fparse (fn f) i LOWEST (w ++ k :: s) = Ok (fold t) (k :: s).
Proof.
  intros HC -> HP ->. destruct (HC HP) as (lp & _ & _ & K).
  apply (K 0 (Trb :: s) 1 (fold t) (Trb :: s)); [left; cbn; lia|cbn; lia|reflexivity].
Qed.

(** A primary expression goes to the loop. *)
Lemma atom_loop i prio t k rest f a r :
  atom t k -> follow i NPrimary t rest ->
  floop (fn f) i prio HIGHEST (fold t) rest = Ok a r ->
  exists f', fparse (fn f') i prio ([k] ++ rest) = Ok a r.
Proof.
  intros Ha HF HL. exists (S f). cbn [ExprModel.fn fparse]. unfold parse_step. cbv zeta. cbn [app].
  destruct Ha; cbn [fold] in HL; try exact HL.
  destruct rest as [|[] rest]; try exact HL. cbn in HF. lia.
Qed.


Lemma nss_app w x : starts starter w -> new_super_start (w ++ x) = new_super_start w.
Proof. destruct w; [contradiction|reflexivity]. Qed.

Lemma okprio_le n w prio : okprio n w prio -> n <> NNew -> n <> NMember -> n <> NPrimary -> prio <= lo n.
Proof. intros [H|[[H|[H|H]] _]]; congruence || tauto. Qed.
Lemma okprio_start n w prio : okprio n w prio -> new_super_start w = true -> prio <= lo n.
Proof. intros [H|[_ [_ H]]] E; congruence. Qed.

Lemma unit_le n m t : unit_rule n m -> lo n <= lo m /\ fo n t <= fo m t /\ n <> NCoal.
Proof.
  intros H. destruct H; cbn; try destruct (simple_target false t); repeat split; try lia; discriminate.
Qed.

Lemma below_follow i q n t rest : follow i n t rest -> fo n t < q -> below i q rest.
Proof. destruct rest; cbn; [auto|lia]. Qed.
Lemma follow_le i n t m u rest : follow i n t rest -> fo n t <= fo m u -> follow i m u rest.
Proof. destruct rest; cbn; [auto|lia]. Qed.

Lemma left_infix o n m : left_op o = Some (n, m) ->
  infix (op_tok o) = Some (o, lo n, lo n, lo m) /\ (forall t, fo n t = lo n) /\
  lo n < lo m /\ lo n <= 14 /\ (forall t, lo n <= fo m t) /\ m <> NExpr /\
  n <> NExpr /\ n <> NCoal /\ n <> NNew /\ n <> NMember /\ n <> NPrimary.
Proof.
  destruct o; cbn; intros H; try discriminate H; injection H as <- <-;
    repeat split; try discriminate; try (cbn; lia); intros; cbn; lia.
Qed.
Lemma left_rank i o n m : left_op o = Some (n, m) -> rank i (op_tok o) <= lo n.
Proof. destruct o; cbn; intros H; try discriminate H; injection H as <- <-; cbn; try lia. destruct i; lia. Qed.

(** Reading one step of each function. *)
Lemma parse_S f i p s : fparse (fn (S f)) i p s = parse_step strict (fn f) i p s. Proof. reflexivity. Qed.
Lemma loop_S f i p l a s : floop (fn (S f)) i p l a s = loop_step strict (fn f) i p l a s. Proof. reflexivity. Qed.
Lemma parens_S f s : fparens (fn (S f)) s = parens_step (fn f) s. Proof. reflexivity. Qed.
Lemma args_S f b s : fargs (fn (S f)) b s = args_step (fn f) b s. Proof. reflexivity. Qed.
Lemma chain_S f t b s : fchain (fn (S f)) t b s = chain_step (fn f) t b s. Proof. reflexivity. Qed.
Lemma new_S f i s : fnew (fn (S f)) i s = new_step (fn f) i s. Proof. reflexivity. Qed.
Lemma pre_S f i p b s : fpre (fn (S f)) i p b s = pre_step strict (fn f) i p b s. Proof. reflexivity. Qed.

Ltac more := first [eapply parse_more; [eassumption|lia] | eapply loop_more; [eassumption|lia]
  | eapply parens_more; [eassumption|lia] | eapply args_more; [eassumption|lia]
  | eapply chain_more; [eassumption|lia] | eapply new_more; [eassumption|lia]].

Lemma loop_as f1 f2 i prio lp a acc r s1 s2 x y :
  LH <= lp -> prio <= ASSI -> simple_target strict acc = true ->
  fparse (fn f1) i ASSI s1 = Ok r s2 ->
  floop (fn f2) i prio ASSI (mk_assign a acc r) s2 = Ok x y ->
  floop (fn (S (f1 + f2))) i prio lp acc (Tas a :: s1) = Ok x y.
Proof.
  intros Hl Hp Hs H1 H2. rewrite loop_S. unfold loop_step. cbv zeta.
  rewrite (proj2 (Nat.ltb_ge lp 18) Hl), (proj2 (Nat.ltb_ge 2 prio) Hp), Hs. cbn [orb].
  rewrite (parse_more strict _ (f1 + f2) _ _ _ _ _ H1) by lia. more.
Qed.

Lemma loop_bin f1 f2 i prio lp acc t s1 o need p q r s2 x y :
  infix t = Some (o, need, p, q) -> op_allowed i o = true -> left_ok o need lp = true ->
  prio <= p -> fparse (fn f1) i q s1 = Ok r s2 ->
  floop (fn f2) i prio p (mk_bin o acc r) s2 = Ok x y ->
  floop (fn (S (f1 + f2))) i prio lp acc (t :: s1) = Ok x y.
Proof.
  intros Ht Ha Hl Hp H1 H2.
  rewrite (loop_infix (f1 + f2) _ _ _ _ _ _ _ _ _ _ _ _ Ht Ha Hl Hp
    (parse_more strict _ (f1 + f2) _ _ _ _ _ H1 ltac:(lia))). more.
Qed.

Lemma loop_cond f1 f2 f3 i prio lp acc s1 a s2 b s3 x y :
  QUES <= lp -> prio <= COND ->
  fparse (fn f1) true ASSI s1 = Ok a (Tcolon :: s2) ->
  fparse (fn f2) i ASSI s2 = Ok b s3 ->
  floop (fn f3) i prio COND (mk_cond acc a b) s3 = Ok x y ->
  floop (fn (S (f1 + f2 + f3))) i prio lp acc (Tques :: s1) = Ok x y.
Proof.
  intros Hl Hp H1 H2 H3. rewrite loop_S. unfold loop_step. cbv zeta.
  rewrite (proj2 (Nat.ltb_ge lp 4) Hl), (proj2 (Nat.ltb_ge 3 prio) Hp). cbn [orb].
  rewrite (parse_more strict _ (f1 + f2 + f3) _ _ _ _ _ H1) by lia.
  rewrite (parse_more strict _ (f1 + f2 + f3) _ _ _ _ _ H2) by lia. more.
Qed.

Lemma loop_comma f1 f2 i lp acc s1 r s2 x y :
  fparse (fn f1) i ASSI s1 = Ok r s2 ->
  floop (fn f2) i LOWEST COMMA (mk_comma acc r) s2 = Ok x y ->
  floop (fn (S (f1 + f2))) i LOWEST lp acc (Tcomma :: s1) = Ok x y.
Proof.
  intros H1 H2. rewrite loop_S. unfold loop_step. cbv zeta. cbn [Nat.leb].
  rewrite (parse_more strict _ (f1 + f2) _ _ _ _ _ H1) by lia. more.
Qed.

Lemma loop_name f i prio lp acc p s x y :
  LH <= lp -> floop (fn f) i prio LH (Member acc p) s = Ok x y ->
  floop (fn (S f)) i prio lp acc (Tdot :: name_tok p :: s) = Ok x y.
Proof.
  intros Hl H. rewrite loop_S. unfold loop_step. cbv zeta.
  rewrite (proj2 (Nat.ltb_ge lp 18) Hl). destruct p; exact H.
Qed.
Lemma loop_priv f i prio lp acc p s x y :
  LH <= lp -> floop (fn f) i prio LH (PrivMember acc p) s = Ok x y ->
  floop (fn (S f)) i prio lp acc (Tdot :: Tpriv p :: s) = Ok x y.
Proof.
  intros Hl H. rewrite loop_S. unfold loop_step. cbv zeta.
  rewrite (proj2 (Nat.ltb_ge lp 18) Hl). exact H.
Qed.
Lemma loop_tagged f i prio lp acc p s x y :
  LH <= lp -> floop (fn f) i prio LH (Tagged acc p) s = Ok x y ->
  floop (fn (S f)) i prio lp acc (Ttmpl p :: s) = Ok x y.
Proof.
  intros Hl H. rewrite loop_S. unfold loop_step. cbv zeta.
  rewrite (proj2 (Nat.ltb_ge lp 18) Hl). exact H.
Qed.
Lemma loop_index f1 f2 i prio lp acc e s1 s2 x y :
  LH <= lp -> fparse (fn f1) true LOWEST s1 = Ok e (Trb :: s2) ->
  floop (fn f2) i prio LH (Index acc e) s2 = Ok x y ->
  floop (fn (S (f1 + f2))) i prio lp acc (Tlb :: s1) = Ok x y.
Proof.
  intros Hl H1 H2. rewrite loop_S. unfold loop_step. cbv zeta.
  rewrite (proj2 (Nat.ltb_ge lp 18) Hl).
  rewrite (parse_more strict _ (f1 + f2) _ _ _ _ _ H1) by lia. more.
Qed.
Lemma loop_call f1 f2 i prio lp acc e s1 s2 x y :
  LH <= lp -> prio <= LH -> fargs (fn f1) false s1 = Ok e s2 ->
  floop (fn f2) i prio LH (Call acc e) s2 = Ok x y ->
  floop (fn (S (f1 + f2))) i prio lp acc (Tlp :: s1) = Ok x y.
Proof.
  intros Hl Hp H1 H2. rewrite loop_S. unfold loop_step. cbv zeta.
  rewrite (proj2 (Nat.ltb_ge lp 18) Hl), (proj2 (Nat.ltb_ge 18 prio) Hp). cbn [orb].
  rewrite (args_more strict _ (f1 + f2) _ _ _ _ H1) by lia. more.
Qed.
Lemma loop_opt f1 f2 i prio lp acc e s1 s2 x y :
  LH <= lp -> fchain (fn f1) (OptBase acc) true s1 = Ok e s2 ->
  floop (fn f2) i prio LH (Opt e) s2 = Ok x y ->
  floop (fn (S (f1 + f2))) i prio lp acc (Tqdot :: s1) = Ok x y.
Proof.
  intros Hl H1 H2. rewrite loop_S. unfold loop_step. cbv zeta.
  rewrite (proj2 (Nat.ltb_ge lp 18) Hl).
  rewrite (chain_more strict _ (f1 + f2) _ _ _ _ _ H1) by lia. more.
Qed.
Lemma loop_post f i prio lp acc inc s x y :
  LH <= lp -> prio <= UPDATE -> simple_target strict acc = true ->
  floop (fn f) i prio UPDATE (Post inc acc) s = Ok x y ->
  floop (fn (S f)) i prio lp acc (inc_tok inc false :: s) = Ok x y.
Proof.
  intros Hl Hp Hs H. rewrite loop_S. unfold loop_step. cbv zeta.
  destruct inc; cbn [inc_tok orb];
    rewrite (proj2 (Nat.ltb_ge lp 18) Hl), (proj2 (Nat.ltb_ge 17 prio) Hp), Hs; exact H.
Qed.

(** Arguments and parentheses. *)
Lemma starter_args f has w s : starts starter w ->
  fargs (fn (S f)) has (w ++ s) =
  match fparse (fn f) true ASSI (w ++ s) with
  | Ok e s2 =>
      match s2 with
      | Trp :: s1 => Ok [Arg e] s1
      | Tcomma :: s1 =>
          match fargs (fn f) true s1 with
          | Ok es s3 => Ok (Arg e :: es) s3
          | Err => Err
          | Out => Out
          end
      | _ => Err
      end
  | Err => Err
  | Out => Out
  end.
Proof.
  intros Hs. rewrite args_S. unfold args_step. cbv zeta.
  destruct w as [|k w]; [contradiction|]. cbn [app] in *. cbn [starts] in Hs.
  destruct k; try discriminate Hs; reflexivity.
Qed.
Lemma starter_parens f w s : starts starter w ->
  fparens (fn (S f)) (w ++ s) =
  match fparse (fn f) true ASSI (w ++ s) with
  | Ok e (Trp :: s1) => Ok [e] s1
  | Ok e (Tcomma :: s1) =>
      match fparens (fn f) s1 with
      | Ok es s2 => Ok (e :: es) s2
      | Err => Err
      | Out => Out
      end
  | Out => Out
  | _ => Err
  end.
Proof.
  intros Hs. rewrite parens_S. unfold parens_step.
  destruct w as [|k w]; [contradiction|]. cbn [app] in *. cbn [starts] in Hs.
  destruct k; try discriminate Hs; reflexivity.
Qed.

Lemma comma_left l xs : fold_left mk_comma l (Comma xs) = Comma (xs ++ l).
Proof.
  revert xs. induction l as [|e l IH]; intros xs; cbn [fold_left mk_comma]; [rewrite app_nil_r; reflexivity|].
  rewrite IH, <- app_assoc. reflexivity.
Qed.
Lemma comma_seq e es : es <> [] -> comma_like (fold e) = false ->
  fold_left mk_comma (map fold es) (fold e) = fold (seq (e :: es)).
Proof.
  intros He Hc. destruct es as [|e2 es]; [congruence|].
  cbn [map fold_left seq].
  replace (mk_comma (fold e) (fold e2)) with (Comma [fold e; fold e2])
    by (unfold mk_comma; destruct (fold e); try reflexivity; discriminate Hc).
  rewrite comma_left. reflexivity.
Qed.
Lemma paren_content_fold es : es <> [] -> paren_content (map fold es) = Some (fold (seq es)).
Proof. destruct es as [|e [|e2 es]]; [congruence|reflexivity|reflexivity]. Qed.
Lemma E_nonempty i es w : E strict i es w -> es <> [].
Proof. intros H. destruct H; discriminate. Qed.

Lemma simple_ff t : simple strict t -> simple_target false t = true.
Proof. induction 1; cbn; auto. Qed.

Theorem complete :
  (forall i n t w, G strict i n t w -> CG i n t w) /\
  (forall i es w, E strict i es w -> CE i es w) /\
  (forall es w, L strict es w -> CL es w) /\
  (forall a w, A strict a w -> CA a w) /\
  (forall b t w, H strict b t w -> CH b t w).
Proof.
  apply (grammar_mut strict CG CE CL CA CH).
  - (* unit *)
    intros i n m t w HU _ IH HP. destruct (IH HP) as (lp & Hlp & _ & K).
    destruct (unit_le n m t HU) as (U1 & U2 & U3).
    exists lp. split; [lia|]. split; [tauto|].
    intros prio rest f a r Hok HF HL. apply (K prio rest f a r); [|eapply follow_le; eassumption|exact HL].
    destruct Hok as [Hok|(Hn & Hp & Hs)]; [left; lia|]. right. split; [|auto].
    destruct HU; intuition discriminate.
  - (* expr *)
    intros i es w _ IH HP. destruct (IH HP) as (_ & _ & lp & K).
    exists lp. split; [cbn; lia|]. split; [discriminate|].
    intros prio rest f a r Hok HF HL. apply okprio_le in Hok; try discriminate. cbn in Hok.
    replace prio with 0 in * by lia. apply (K rest f a r HF HL).
  - (* assign *)
    intros i a l r wl wr _ IHl Hs _ IHr HP.
    destruct (IHl (accept_l _ _ _ HP)) as (lp & Hlp & _ & K).
    pose proof (accept_cons _ _ _ (accept_r _ _ _ HP)) as HPr.
    exists ASSI. split; [cbn; lia|]. split; [discriminate|].
    intros prio rest f x y Hok HF HL. apply okprio_le in Hok; try discriminate. cbn in Hok, Hlp.
    destruct (closed _ _ _ _ rest IHr HPr ltac:(discriminate)) as (f2 & E2);
      [eapply below_follow; [exact HF|cbn; lia]|eapply follow_le; [exact HF|cbn; lia]|].
    rewrite <- app_assoc. apply (K prio _ (S (f2 + f)) x y); [left; cbn; lia|cbn; lia|].
    cbn [app]. eapply loop_as; [exact Hlp|lia| |exact E2|].
    + apply simple_target_iff, simple_fold, Hs.
    + replace (mk_assign a (fold l) (fold r)) with (fold (Assign a (target a l) r)); [exact HL|].
      destruct a; cbn [fold target mk_assign]; [rewrite (bare_fold strict _ Hs)|]; reflexivity.
  - (* arrow *)
    intros i x b w _ IH HP. pose proof (accept_cons _ _ _ (accept_cons _ _ _ HP)) as HPb.
    exists ASSI. split; [cbn; lia|]. split; [discriminate|].
    intros prio rest f a r Hok HF HL. apply okprio_le in Hok; try discriminate. cbn in Hok.
    destruct (closed _ _ _ _ rest IH HPb ltac:(discriminate)) as (f2 & E2);
      [eapply below_follow; [exact HF|cbn; lia]|eapply follow_le; [exact HF|cbn; lia]|].
    exists (S (S (f2 + f))). rewrite parse_S. unfold parse_step. cbv zeta. cbn [app].
    rewrite (proj2 (Nat.leb_le prio 2) Hok). rewrite loop_S. unfold loop_step. cbv zeta.
    rewrite (proj2 (Nat.ltb_ge 2 prio) Hok). cbn [orb]. cbn [lo] in E2.
    rewrite (parse_more strict _ (f2 + f) _ _ _ _ _ E2) by lia. cbn [fold] in HL. more.
  - (* cond *)
    intros i c a b wc wa wb _ IHc _ IHa _ IHb HP.
    destruct (IHc (accept_l _ _ _ HP)) as (lp & Hlp & _ & K).
    pose proof (accept_cons _ _ _ (accept_r _ _ _ HP)) as HP2.
    pose proof (accept_l _ _ _ HP2) as HPa. pose proof (accept_cons _ _ _ (accept_r _ _ _ HP2)) as HPb.
    exists COND. split; [cbn; lia|]. split; [discriminate|].
    intros prio rest f x y Hok HF HL. apply okprio_le in Hok; try discriminate. cbn in Hok, Hlp.
    destruct (closed _ _ _ _ rest IHb HPb ltac:(discriminate)) as (f2 & E2);
      [eapply below_follow; [exact HF|cbn; lia]|eapply follow_le; [exact HF|cbn; lia]|].
    destruct (closed _ _ _ _ (Tcolon :: wb ++ rest) IHa HPa ltac:(discriminate)) as (f1 & E1);
      [cbn; lia|cbn; lia|].
    rewrite <- app_assoc. apply (K prio _ (S (f1 + f2 + f)) x y); [left; cbn; lia|cbn; lia|].
    cbn [app]. rewrite <- app_assoc. cbn [app].
    eapply loop_cond; [exact Hlp|lia|exact E1|exact E2|exact HL].
  - (* coalesce *)
    intros i n l r wl wr Hn _ IHl _ IHr HP.
    destruct (IHl (accept_l _ _ _ HP)) as (lp & Hlp & Hq & K).
    pose proof (accept_cons _ _ _ (accept_r _ _ _ HP)) as HPr.
    exists QUES. split; [cbn; lia|]. split; [reflexivity|].
    intros prio rest f x y Hok HF HL. apply okprio_le in Hok; try discriminate. cbn in Hok.
    destruct (closed _ _ _ _ rest IHr HPr ltac:(discriminate)) as (f2 & E2);
      [eapply below_follow; [exact HF|cbn; lia]|eapply follow_le; [exact HF|cbn; lia]|].
    rewrite <- app_assoc. apply (K prio _ (S (f2 + f)) x y).
    + left. destruct Hn as [->| ->]; cbn; lia.
    + destruct Hn as [->| ->]; cbn; lia.
    + cbn [app]. eapply loop_bin; [reflexivity|reflexivity| |exact Hok|exact E2|rewrite mk_bin_fold; exact HL].
      unfold left_ok. destruct Hn as [->| ->].
      * rewrite (Hq eq_refl). reflexivity.
      * cbn in Hlp. rewrite (proj2 (Nat.leb_le 7 lp) Hlp). reflexivity.
  - (* left associative *)
    intros i o n m l r wl wr Ho Hi _ IHl _ IHr HP.
    destruct (left_infix _ _ _ Ho) as (I1 & I2 & I3 & I4 & I5 & I6 & I7 & I8 & I9 & I10 & I11).
    pose proof (left_rank i _ _ _ Ho) as IR.
    destruct (IHl (accept_l _ _ _ HP)) as (lp & Hlp & _ & K).
    pose proof (accept_cons _ _ _ (accept_r _ _ _ HP)) as HPr.
    exists (lo n). split; [lia|]. split; [tauto|].
    intros prio rest f x y Hok HF HL. apply okprio_le in Hok; try assumption.
    destruct (closed _ _ _ _ rest IHr HPr I6) as (f2 & E2);
      [eapply below_follow; [exact HF|rewrite I2; lia]
      |eapply follow_le; [exact HF|rewrite I2; apply I5]|].
    rewrite <- app_assoc. apply (K prio _ (S (f2 + f)) x y); [left; lia|cbn; rewrite I2; exact IR|].
    cbn [app]. eapply loop_bin; [exact I1| | |exact Hok|exact E2|rewrite mk_bin_fold; exact HL].
    + unfold op_allowed. destruct o; auto.
    + unfold left_ok. rewrite (proj2 (Nat.leb_le _ lp) Hlp). reflexivity.
  - (* private in *)
    intros i x r w -> _ IH HP. pose proof (accept_cons _ _ _ (accept_cons _ _ _ HP)) as HPb.
    exists REL. split; [cbn; lia|]. split; [discriminate|].
    intros prio rest f a y Hok HF HL. apply okprio_le in Hok; try discriminate. cbn in Hok.
    destruct (closed _ _ _ _ rest IH HPb ltac:(discriminate)) as (f2 & E2);
      [eapply below_follow; [exact HF|cbn; lia]|eapply follow_le; [exact HF|cbn; lia]|].
    exists (S (S (f2 + f))). rewrite parse_S. unfold parse_step. cbv zeta. cbn [app negb].
    rewrite (proj2 (Nat.ltb_ge 11 prio) Hok).
    eapply loop_bin; [reflexivity|reflexivity|reflexivity|exact Hok|exact E2|].
    exact HL.
  - (* exp *)
    intros i l r wl wr _ IHl _ IHr HP.
    destruct (IHl (accept_l _ _ _ HP)) as (lp & Hlp & _ & K).
    pose proof (accept_cons _ _ _ (accept_r _ _ _ HP)) as HPr.
    exists EXP. split; [cbn; lia|]. split; [discriminate|].
    intros prio rest f x y Hok HF HL. apply okprio_le in Hok; try discriminate. cbn in Hok, Hlp.
    destruct (closed _ _ _ _ rest IHr HPr ltac:(discriminate)) as (f2 & E2);
      [eapply below_follow; [exact HF|cbn; lia]|eapply follow_le; [exact HF|cbn; lia]|].
    rewrite <- app_assoc. apply (K prio _ (S (f2 + f)) x y); [left; cbn; lia| |].
    { cbn. destruct (simple_target false l); lia. }
    cbn [app]. eapply loop_bin; [reflexivity|reflexivity| |exact Hok|exact E2|exact HL].
    unfold left_ok. rewrite (proj2 (Nat.leb_le 17 lp) Hlp). reflexivity.
  - (* unary *)
    intros i u e w HG IH Hd HP. pose proof (accept_cons _ _ _ HP) as HPe.
    exists UNARY. split; [cbn; lia|]. split; [discriminate|].
    intros prio rest f x y Hok HF HL. apply okprio_le in Hok; try discriminate. cbn in Hok.
    destruct (closed _ _ _ _ rest IH HPe ltac:(discriminate)) as (f2 & E2);
      [eapply below_follow; [exact HF|cbn; lia]
      |eapply follow_le; [exact HF|cbn; destruct (simple_target false e); lia]|].
    exists (S (f2 + f)). rewrite parse_S. unfold parse_step. cbv zeta. cbn [app lo] in *.
    pose proof (parse_more strict _ (f2 + f) _ _ _ _ _ E2 ltac:(lia)) as E2'.
    pose proof (loop_more strict _ (f2 + f) _ _ _ _ _ _ _ HL ltac:(lia)) as HL'.
    assert (Hdel : match u with Udelete => delete_operand strict (fold e) | _ => true end = true).
    { destruct u; try reflexivity. destruct strict eqn:Es; [|destruct (fold e); reflexivity].
      destruct HP as (_ & _ & HP). destruct (HP eq_refl) as [HP'|[HP1 HP2]].
      - exfalso. apply HP'. left. reflexivity.
      - rewrite (fold_id _ _ _ _ _ HG (nopair_cons _ _ _ HP2)).
        eapply delete_ok; [exact HG| |apply Hd; reflexivity].
        intros Hi. apply HP1. right. exact Hi. }
    destruct u; cbn [un_tok prefix]; rewrite (proj2 (Nat.ltb_ge 16 prio) Hok), E2', ?Hdel; exact HL'.
  - (* pre *)
    intros i inc nl e w HG IH Hs HP. pose proof (accept_cons _ _ _ HP) as HPe.
    exists UPDATE. split; [cbn; lia|]. split; [discriminate|].
    intros prio rest f x y Hok HF HL. apply okprio_le in Hok; try discriminate. cbn in Hok.
    destruct (closed _ _ _ _ rest IH HPe ltac:(discriminate)) as (f2 & E2);
      [eapply below_follow; [exact HF|cbn; lia]
      |eapply follow_le; [exact HF|cbn; rewrite (simple_ff _ Hs); lia]|].
    exists (S (S (f2 + f))). rewrite parse_S. unfold parse_step. cbv zeta. cbn [app lo] in *.
    pose proof (parse_more strict _ (f2 + f) _ _ _ _ _ E2 ltac:(lia)) as E2'.
    pose proof (loop_more strict _ (f2 + f) _ _ _ _ _ _ _ HL ltac:(lia)) as HL'.
    destruct inc; cbn [inc_tok]; rewrite pre_S; unfold pre_step;
      rewrite (proj2 (Nat.ltb_ge 17 prio) Hok), E2',
        (proj2 (simple_target_iff strict _) (simple_fold _ _ Hs)); exact HL'.
  - (* post *)
    intros i inc e w _ IH Hs HP. destruct (IH (accept_l _ _ _ HP)) as (lp & Hlp & _ & K).
    exists UPDATE. split; [cbn; lia|]. split; [discriminate|].
    intros prio rest f x y Hok HF HL. apply okprio_le in Hok; try discriminate. cbn in Hok, Hlp.
    rewrite <- app_assoc. apply (K prio _ (S f) x y); [left; cbn; lia|destruct inc; cbn; lia|].
    cbn [app]. eapply loop_post; [exact Hlp|exact Hok| |exact HL].
    apply simple_target_iff, simple_fold, Hs.
  - (* optional chain *)
    intros i n b t wb w Hn _ IHb HH IHh HP. destruct (IHb (accept_l _ _ _ HP)) as (lp & Hlp & _ & K).
    pose proof (accept_r _ _ _ HP) as HPh.
    destruct (H_cons _ _ _ _ HH) as (w' & ->).
    exists LH. split; [cbn; lia|]. split; [discriminate|].
    intros prio rest f x y Hok HF HL. apply okprio_le in Hok; try discriminate. cbn in Hok.
    assert (Hlp' : 18 <= lp) by (destruct Hn as [->|[->| ->]]; exact Hlp).
    destruct (IHh HPh w' eq_refl rest 1 (fold t) rest) as (f2 & E2).
    { rewrite chain_S. unfold chain_step. cbv zeta. destruct rest as [|k rest]; [reflexivity|].
      destruct k; try reflexivity; cbn in HF; lia. }
    rewrite <- app_assoc. apply (K prio _ (S (f2 + f)) x y).
    + left. destruct Hn as [->|[->| ->]]; cbn; lia.
    + destruct Hn as [->|[->| ->]]; cbn; lia.
    + cbn [app]. eapply loop_opt; [exact Hlp'|exact E2|exact HL].
  - (* call of a member *)
    intros i g a wf wa _ IHf _ IHa HP. destruct (IHf (accept_l _ _ _ HP)) as (lp & Hlp & _ & K).
    pose proof (accept_cons _ _ _ (accept_r _ _ _ HP)) as HPa.
    exists LH. split; [cbn; lia|]. split; [discriminate|].
    intros prio rest f x y Hok HF HL. apply okprio_le in Hok; try discriminate. cbn in Hok, Hlp.
    destruct (IHa HPa rest) as (f2 & E2).
    rewrite <- app_assoc. apply (K prio _ (S (f2 + f)) x y); [left; cbn; lia|cbn; lia|].
    cbn [app]. eapply loop_call; [exact Hlp|exact Hok|exact E2|exact HL].
  - (* call of a call *)
    intros i g a wf wa _ IHf _ IHa HP. destruct (IHf (accept_l _ _ _ HP)) as (lp & Hlp & _ & K).
    pose proof (accept_cons _ _ _ (accept_r _ _ _ HP)) as HPa.
    exists LH. split; [cbn; lia|]. split; [discriminate|].
    intros prio rest f x y Hok HF HL. apply okprio_le in Hok; try discriminate. cbn in Hok, Hlp.
    destruct (IHa HPa rest) as (f2 & E2).
    rewrite <- app_assoc. apply (K prio _ (S (f2 + f)) x y); [left; cbn; lia|cbn; lia|].
    cbn [app]. eapply loop_call; [exact Hlp|exact Hok|exact E2|exact HL].
  - (* super call *)
    intros i a wa _ IH HP. pose proof (accept_cons _ _ _ (accept_cons _ _ _ HP)) as HPa.
    exists LH. split; [cbn; lia|]. split; [discriminate|].
    intros prio rest f x y Hok HF HL. apply okprio_le in Hok; try discriminate. cbn in Hok.
    destruct (IH HPa rest) as (f2 & E2).
    exists (S (f2 + f)). rewrite parse_S. unfold parse_step. cbv zeta. cbn [app].
    rewrite (proj2 (Nat.ltb_ge 18 prio) Hok).
    rewrite (args_more strict _ (f2 + f) _ _ _ _ E2) by lia. more.
  - (* new without arguments *)
    intros i g w HG IH HP. pose proof (accept_cons _ _ _ HP) as HPe.
    destruct (IH HPe) as (lp & Hlp & _ & K).
    exists NEW. split; [cbn; lia|]. split; [discriminate|].
    intros prio rest f x y Hok HF HL. apply okprio_start in Hok; [|reflexivity]. cbn in Hok.
    destruct (G_cons _ _ _ _ _ HG) as (k & v & -> & Hk).
    destruct HP as (P1 & P2 & _).
    pose proof (nopair_mid _ [] _ _ _ P1) as Q1. pose proof (nopair_mid _ [] _ _ _ P2) as Q2.
    assert (Hss : new_super_start (k :: v) = false)
      by (destruct k; try reflexivity; destruct k; try reflexivity; discriminate).
    destruct (K 20 rest 1 (fold g) rest) as (f2 & E2).
    { right. auto. }
    { eapply follow_le; [exact HF|cbn; lia]. }
    { apply loop_stop; [|lia]. eapply below_follow; [exact HF|cbn; lia]. }
    exists (S (S (f2 + f))). rewrite parse_S. unfold parse_step. cbv zeta. cbn [app].
    rewrite (proj2 (Nat.ltb_ge 19 prio)) by lia. rewrite new_S. unfold new_step.
    cbn [app] in E2.
    pose proof (parse_more strict _ (f2 + f) _ _ _ _ _ E2 ltac:(lia)) as E2'.
    pose proof (loop_more strict _ (S (f2 + f)) _ _ _ _ _ _ _ HL ltac:(lia)) as HL'.
    assert (HR : match rest with Tlp :: _ => False | _ => True end)
      by (destruct rest as [|[] rest]; try exact Logic.I; cbn in HF; lia).
    cbn [fold map] in HL'.
    destruct k; try discriminate Hk; try (destruct k; try discriminate); rewrite E2';
      (destruct rest as [|[] rest]; try contradiction HR; exact HL').
  - (* new with arguments *)
    intros i g a wf wa HG IHf _ IHa HP. pose proof (accept_cons _ _ _ HP) as HPe.
    destruct (IHf (accept_l _ _ _ HPe)) as (lp & Hlp & _ & K).
    pose proof (accept_cons _ _ _ (accept_r _ _ _ HPe)) as HPa.
    exists NEW. split; [cbn; lia|]. split; [discriminate|].
    intros prio rest f x y Hok HF HL. apply okprio_start in Hok; [|reflexivity]. cbn in Hok.
    destruct (G_cons _ _ _ _ _ HG) as (k & v & -> & Hk).
    destruct HP as (P1 & P2 & _). cbn [app] in P1, P2.
    pose proof (nopair_mid _ [] _ _ _ P1) as Q1. pose proof (nopair_mid _ [] _ _ _ P2) as Q2.
    assert (Hss : new_super_start (k :: v) = false)
      by (destruct k; try reflexivity; destruct k; try reflexivity; discriminate).
    destruct (IHa HPa rest) as (f3 & E3).
    destruct (K 20 (Tlp :: wa ++ rest) 1 (fold g) (Tlp :: wa ++ rest)) as (f2 & E2).
    { right. auto. }
    { cbn; lia. }
    { rewrite loop_S. unfold loop_step. cbv zeta. cbn [Nat.ltb Nat.leb]. rewrite orb_true_r. reflexivity. }
    exists (S (S (f2 + f3 + f))). rewrite parse_S. unfold parse_step. cbv zeta. cbn [app].
    rewrite (proj2 (Nat.ltb_ge 19 prio)) by lia. rewrite new_S. unfold new_step.
    rewrite <- app_assoc. cbn [app] in *.
    pose proof (parse_more strict _ (f2 + f3 + f) _ _ _ _ _ E2 ltac:(lia)) as E2'.
    pose proof (args_more strict _ (f2 + f3 + f) _ _ _ _ E3 ltac:(lia)) as E3'.
    pose proof (loop_more strict _ (S (f2 + f3 + f)) _ _ _ _ _ _ _ HL ltac:(lia)) as HL'.
    destruct k; try discriminate Hk; try (destruct k; try discriminate); rewrite E2', E3'; exact HL'.
  - (* new.target *)
    intros i HP. exists NEW. split; [cbn; lia|]. split; [discriminate|].
    intros prio rest f x y Hok HF HL. apply okprio_start in Hok; [|reflexivity]. cbn in Hok.
    exists (S (S f)). rewrite parse_S. unfold parse_step. cbv zeta. cbn [app].
    rewrite (proj2 (Nat.ltb_ge 19 prio)) by lia. rewrite new_S. unfold new_step.
    cbn [String.eqb Ascii.eqb Bool.eqb]. more.
  - (* super.name *)
    intros i p HP. exists LH. split; [cbn; lia|]. split; [discriminate|].
    intros prio rest f x y Hok HF HL. apply okprio_start in Hok; [|reflexivity]. cbn in Hok.
    exists (S f). rewrite parse_S. unfold parse_step. cbv zeta. cbn [app].
    rewrite (proj2 (Nat.ltb_ge 18 prio)) by lia. destruct p; exact HL.
  - (* super[e] *)
    intros i e w _ IH HP.
    pose proof (accept_l _ _ _ (accept_cons _ _ _ (accept_cons _ _ _ HP))) as HPe.
    exists LH. split; [cbn; lia|]. split; [discriminate|].
    intros prio rest f x y Hok HF HL. apply okprio_start in Hok; [|reflexivity]. cbn in Hok.
    destruct (closed_expr _ _ _ _ Trb rest IH eq_refl HPe eq_refl) as (f2 & E2).
    exists (S (f2 + f)). rewrite parse_S. unfold parse_step. cbv zeta. cbn [app].
    rewrite (proj2 (Nat.ltb_ge 18 prio)) by lia. rewrite <- app_assoc. cbn [app].
    rewrite (parse_more strict _ (f2 + f) _ _ _ _ _ E2) by lia. more.
  - (* .name *)
    intros i n o p w Hn HG IH HP. destruct (IH (accept_l _ _ _ HP)) as (lp & Hlp & _ & K).
    assert (Hlp' : 18 <= lp) by (destruct Hn as [->| ->]; exact Hlp).
    exists LH. split; [destruct Hn as [->| ->]; cbn; lia|]. split; [destruct Hn as [->| ->]; discriminate|].
    intros prio rest f x y Hok HF HL. rewrite <- app_assoc. apply (K prio _ (S f) x y).
    + destruct Hok as [Hok|(Hq & Hp & Hs)]; [left; exact Hok|right].
      rewrite (nss_app _ _ (G_starts _ _ _ _ _ HG)) in Hs. auto.
    + destruct Hn as [->| ->]; cbn; lia.
    + cbn [app]. apply loop_name; [exact Hlp'|exact HL].
  - (* .#name *)
    intros i n o p w Hn HG IH HP. destruct (IH (accept_l _ _ _ HP)) as (lp & Hlp & _ & K).
    assert (Hlp' : 18 <= lp) by (destruct Hn as [->| ->]; exact Hlp).
    exists LH. split; [destruct Hn as [->| ->]; cbn; lia|]. split; [destruct Hn as [->| ->]; discriminate|].
    intros prio rest f x y Hok HF HL. rewrite <- app_assoc. apply (K prio _ (S f) x y).
    + destruct Hok as [Hok|(Hq & Hp & Hs)]; [left; exact Hok|right].
      rewrite (nss_app _ _ (G_starts _ _ _ _ _ HG)) in Hs. auto.
    + destruct Hn as [->| ->]; cbn; lia.
    + cbn [app]. apply loop_priv; [exact Hlp'|exact HL].
  - (* [e] *)
    intros i n o e w we Hn HG IH _ IHe HP. destruct (IH (accept_l _ _ _ HP)) as (lp & Hlp & _ & K).
    pose proof (accept_l _ _ _ (accept_cons _ _ _ (accept_r _ _ _ HP))) as HPe.
    assert (Hlp' : 18 <= lp) by (destruct Hn as [->| ->]; exact Hlp).
    exists LH. split; [destruct Hn as [->| ->]; cbn; lia|]. split; [destruct Hn as [->| ->]; discriminate|].
    intros prio rest f x y Hok HF HL.
    destruct (closed_expr _ _ _ _ Trb rest IHe eq_refl HPe eq_refl) as (f2 & E2).
    rewrite <- app_assoc. apply (K prio _ (S (f2 + f)) x y).
    + destruct Hok as [Hok|(Hq & Hp & Hs)]; [left; exact Hok|right].
      rewrite (nss_app _ _ (G_starts _ _ _ _ _ HG)) in Hs. auto.
    + destruct Hn as [->| ->]; cbn; lia.
    + cbn [app]. rewrite <- app_assoc. cbn [app]. eapply loop_index; [exact Hlp'|exact E2|exact HL].
  - (* template *)
    intros i n o p w Hn HG IH HP. destruct (IH (accept_l _ _ _ HP)) as (lp & Hlp & _ & K).
    assert (Hlp' : 18 <= lp) by (destruct Hn as [->| ->]; exact Hlp).
    exists LH. split; [destruct Hn as [->| ->]; cbn; lia|]. split; [destruct Hn as [->| ->]; discriminate|].
    intros prio rest f x y Hok HF HL. rewrite <- app_assoc. apply (K prio _ (S f) x y).
    + destruct Hok as [Hok|(Hq & Hp & Hs)]; [left; exact Hok|right].
      rewrite (nss_app _ _ (G_starts _ _ _ _ _ HG)) in Hs. auto.
    + destruct Hn as [->| ->]; cbn; lia.
    + cbn [app]. apply loop_tagged; [exact Hlp'|exact HL].
  - (* atom *)
    intros i t k Ha HP. exists HIGHEST. split; [cbn; lia|]. split; [discriminate|].
    intros prio rest f x y Hok HF HL. eapply atom_loop; eassumption.
  - (* parentheses *)
    intros i es w HE IH HP. destruct (IH (accept_l _ _ _ (accept_cons _ _ _ HP))) as (K & _).
    exists HIGHEST. split; [cbn; lia|]. split; [discriminate|].
    intros prio rest f x y Hok HF HL. destruct (K eq_refl rest) as (f2 & E2).
    exists (S (f2 + f)). rewrite parse_S. unfold parse_step. cbv zeta. cbn [app].
    rewrite <- app_assoc. cbn [app].
    rewrite (parens_more strict _ (f2 + f) _ _ _ E2) by lia.
    rewrite (paren_content_fold _ (E_nonempty _ _ _ HE)).
    pose proof (loop_more strict _ (f2 + f) _ _ _ _ _ _ _ HL ltac:(lia)) as HL'.
    cbn [fold] in HL'. destruct rest as [|[] rest]; try exact HL'. cbn in HF. lia.
  - (* one expression *)
    intros i e w HG IH HP. split; [|split].
    + intros -> s. destruct (closed _ _ _ _ (Trp :: s) IH HP ltac:(discriminate)) as (f & E); [cbn; lia|cbn; lia|].
      exists (S f). rewrite (starter_parens _ _ _ (G_starts _ _ _ _ _ HG)). cbn [lo] in E. rewrite E. reflexivity.
    + intros lp acc rest f a r HF HL.
      destruct (closed _ _ _ _ rest IH HP ltac:(discriminate)) as (f2 & E2);
        [eapply below_follow; [exact HF|cbn; lia]|eapply follow_le; [exact HF|cbn; lia]|].
      exists (S (f2 + f)). eapply loop_comma; [exact E2|exact HL].
    + destruct (IH HP) as (lp & _ & _ & K). exists lp. intros rest f a r HF HL.
      apply (K 0 rest f a r); [left; lia|eapply follow_le; [exact HF|cbn; lia]|exact HL].
  - (* several expressions *)
    intros i e es w ws HG IH HE IHs HP.
    destruct (IHs (accept_cons _ _ _ (accept_r _ _ _ HP))) as (K1 & K2 & _).
    pose proof (accept_l _ _ _ HP) as HPe. split; [|split].
    + intros Hi s. destruct (K1 Hi s) as (f1 & E1). subst i.
      destruct (closed _ _ _ _ (Tcomma :: ws ++ Trp :: s) IH HPe ltac:(discriminate)) as (f & E); [cbn; lia|cbn; lia|].
      exists (S (f1 + f)). rewrite <- app_assoc. rewrite (starter_parens _ _ _ (G_starts _ _ _ _ _ HG)).
      cbn [app]. cbn [lo] in E.
      rewrite (parse_more strict _ (f1 + f) _ _ _ _ _ E) by lia.
      rewrite (parens_more strict _ (f1 + f) _ _ _ E1) by lia. reflexivity.
    + intros lp acc rest f a r HF HL.
      destruct (K2 COMMA (mk_comma acc (fold e)) rest f a r HF HL) as (f1 & E1).
      destruct (closed _ _ _ _ (Tcomma :: ws ++ rest) IH HPe ltac:(discriminate)) as (f2 & E2); [cbn; lia|cbn; lia|].
      exists (S (f2 + f1)). rewrite <- app_assoc. cbn [app]. eapply loop_comma; [exact E2|exact E1].
    + destruct (IH HPe) as (lp & _ & _ & K). exists COMMA. intros rest f a r HF HL.
      rewrite <- (comma_seq e es (E_nonempty _ _ _ HE)) in HL
        by (eapply no_comma_fold; [exact HG|discriminate]).
      destruct (K2 lp (fold e) rest f a r HF HL) as (f1 & E1).
      rewrite <- app_assoc. cbn [app].
      apply (K 0 _ f1 a r); [left; lia|cbn; lia|exact E1].
  - (* one argument *)
    intros e w HG IH HP has s. split.
    + destruct (closed _ _ _ _ (Trp :: s) IH HP ltac:(discriminate)) as (f & E); [cbn; lia|cbn; lia|].
      exists (S f). rewrite (starter_args _ _ _ _ (G_starts _ _ _ _ _ HG)). cbn [lo] in E. rewrite E. reflexivity.
    + destruct (closed _ _ _ _ (Tcomma :: Trp :: s) IH HP ltac:(discriminate)) as (f & E); [cbn; lia|cbn; lia|].
      exists (S (S f)). rewrite (starter_args _ _ _ _ (G_starts _ _ _ _ _ HG)). cbn [lo] in E.
      rewrite (parse_more strict _ (S f) _ _ _ _ _ E) by lia. reflexivity.
  - (* one spread argument *)
    intros e w HG IH HP has s. apply accept_cons in HP. split.
    + destruct (closed _ _ _ _ (Trp :: s) IH HP ltac:(discriminate)) as (f & E); [cbn; lia|cbn; lia|].
      exists (S f). rewrite args_S. unfold args_step. cbv zeta. cbn [app lo] in *. rewrite E. reflexivity.
    + destruct (closed _ _ _ _ (Tcomma :: Trp :: s) IH HP ltac:(discriminate)) as (f & E); [cbn; lia|cbn; lia|].
      exists (S (S f)). rewrite args_S. unfold args_step. cbv zeta. cbn [app lo] in *.
      rewrite (parse_more strict _ (S f) _ _ _ _ _ E) by lia. reflexivity.
  - (* more arguments *)
    intros e es w ws HG IH _ IHs HP has s.
    pose proof (accept_l _ _ _ HP) as HPe.
    destruct (IHs (accept_cons _ _ _ (accept_r _ _ _ HP)) true s) as ((f1 & E1) & (f2 & E2)). split.
    + destruct (closed _ _ _ _ (Tcomma :: ws ++ Trp :: s) IH HPe ltac:(discriminate)) as (f & E); [cbn; lia|cbn; lia|].
      exists (S (f1 + f)). rewrite <- app_assoc. cbn [app].
      rewrite (starter_args _ _ _ _ (G_starts _ _ _ _ _ HG)). cbn [lo] in E.
      rewrite (parse_more strict _ (f1 + f) _ _ _ _ _ E) by lia.
      rewrite (args_more strict _ (f1 + f) _ _ _ _ E1) by lia. reflexivity.
    + destruct (closed _ _ _ _ (Tcomma :: ws ++ Tcomma :: Trp :: s) IH HPe ltac:(discriminate)) as (f & E); [cbn; lia|cbn; lia|].
      exists (S (f2 + f)). rewrite <- app_assoc. cbn [app].
      rewrite (starter_args _ _ _ _ (G_starts _ _ _ _ _ HG)). cbn [lo] in E.
      rewrite (parse_more strict _ (f2 + f) _ _ _ _ _ E) by lia.
      rewrite (args_more strict _ (f2 + f) _ _ _ _ E2) by lia. reflexivity.
  - (* spread and more *)
    intros e es w ws HG IH _ IHs HP has s. apply accept_cons in HP.
    pose proof (accept_l _ _ _ HP) as HPe.
    destruct (IHs (accept_cons _ _ _ (accept_r _ _ _ HP)) true s) as ((f1 & E1) & (f2 & E2)). split.
    + destruct (closed _ _ _ _ (Tcomma :: ws ++ Trp :: s) IH HPe ltac:(discriminate)) as (f & E); [cbn; lia|cbn; lia|].
      exists (S (f1 + f)). rewrite args_S. unfold args_step. cbv zeta. cbn [app].
      rewrite <- app_assoc. cbn [app lo] in *.
      rewrite (parse_more strict _ (f1 + f) _ _ _ _ _ E) by lia.
      rewrite (args_more strict _ (f1 + f) _ _ _ _ E1) by lia. reflexivity.
    + destruct (closed _ _ _ _ (Tcomma :: ws ++ Tcomma :: Trp :: s) IH HPe ltac:(discriminate)) as (f & E); [cbn; lia|cbn; lia|].
      exists (S (f2 + f)). rewrite args_S. unfold args_step. cbv zeta. cbn [app].
      rewrite <- app_assoc. cbn [app lo] in *.
      rewrite (parse_more strict _ (f2 + f) _ _ _ _ _ E) by lia.
      rewrite (args_more strict _ (f2 + f) _ _ _ _ E2) by lia. reflexivity.
  - (* no arguments *)
    intros _ s. exists 1. reflexivity.
  - intros es w _ IH HP s. rewrite <- app_assoc. cbn [app].
    apply (IH (accept_l _ _ _ HP) false s).
  - intros es w _ IH HP s. rewrite <- app_assoc. cbn [app].
    apply (IH (accept_l _ _ _ HP) false s).
  - (* ?.( *)
    intros b a wa _ IH HP w' Ew rest f x y HL. injection Ew as <-.
    destruct (IH (accept_cons _ _ _ (accept_cons _ _ _ HP)) rest) as (f2 & E2).
    exists (S (f2 + f)). rewrite chain_S. unfold chain_step. cbv zeta. cbn [app].
    rewrite (args_more strict _ (f2 + f) _ _ _ _ E2) by lia. more.
  - (* ?.[ *)
    intros b e w _ IH HP w' Ew rest f x y HL. injection Ew as <-.
    pose proof (accept_l _ _ _ (accept_cons _ _ _ (accept_cons _ _ _ HP))) as HPe.
    destruct (closed_expr _ _ _ _ Trb rest IH eq_refl HPe eq_refl) as (f2 & E2).
    exists (S (f2 + f)). rewrite chain_S. unfold chain_step. cbv zeta. cbn [app].
    rewrite <- app_assoc. cbn [app].
    rewrite (parse_more strict _ (f2 + f) _ _ _ _ _ E2) by lia. more.
  - (* ?.name *)
    intros b p HP w' Ew rest f x y HL. injection Ew as <-.
    exists (S f). rewrite chain_S. unfold chain_step. cbv zeta. destruct p; exact HL.
  - intros b p HP w' Ew rest f x y HL. injection Ew as <-.
    exists (S f). rewrite chain_S. unfold chain_step. cbv zeta. exact HL.
  - intros b t w a wa HH IH _ IHa HP w' Ew rest f x y HL.
    destruct (H_cons _ _ _ _ HH) as (v & ->). injection Ew as <-.
    destruct (IHa (accept_cons _ _ _ (accept_r _ _ _ HP)) rest) as (f2 & E2).
    rewrite <- app_assoc. cbn [app].
    apply (IH (accept_l _ _ _ HP) v eq_refl _ (S (f2 + f))).
    rewrite chain_S. unfold chain_step. cbv zeta.
    rewrite (args_more strict _ (f2 + f) _ _ _ _ E2) by lia. more.
  - intros b t w e we HH IH _ IHe HP w' Ew rest f x y HL.
    destruct (H_cons _ _ _ _ HH) as (v & ->). injection Ew as <-.
    pose proof (accept_l _ _ _ (accept_cons _ _ _ (accept_r _ _ _ HP))) as HPe.
    destruct (closed_expr _ _ _ _ Trb rest IHe eq_refl HPe eq_refl) as (f2 & E2).
    rewrite <- app_assoc. cbn [app].
    apply (IH (accept_l _ _ _ HP) v eq_refl _ (S (f2 + f))).
    rewrite chain_S. unfold chain_step. cbv zeta. rewrite <- app_assoc. cbn [app].
    rewrite (parse_more strict _ (f2 + f) _ _ _ _ _ E2) by lia. more.
  - intros b t w p HH IH HP w' Ew rest f x y HL.
    destruct (H_cons _ _ _ _ HH) as (v & ->). injection Ew as <-.
    rewrite <- app_assoc. cbn [app].
    apply (IH (accept_l _ _ _ HP) v eq_refl _ (S f)).
    rewrite chain_S. unfold chain_step. cbv zeta. destruct p; exact HL.
  - intros b t w p HH IH HP w' Ew rest f x y HL.
    destruct (H_cons _ _ _ _ HH) as (v & ->). injection Ew as <-.
    rewrite <- app_assoc. cbn [app].
    apply (IH (accept_l _ _ _ HP) v eq_refl _ (S f)).
    rewrite chain_S. unfold chain_step. cbv zeta. exact HL.
Qed.

End Complete.
