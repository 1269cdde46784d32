(** * Which programs get code: jumps and their targets *)

From Coq Require Import List Bool Arith Lia.
From Verif Require Import FlowModel FlowSpec FlowFacts FlowProofs.
Import ListNotations.

Definition some_ {T : Type} (o : option T) : bool := match o with Some _ => true | None => false end.

(** A jump that leaves the statement has somewhere to go. *)
Definition okj (ls : list nat) (k : ctx) (j : bool * option nat) : bool :=
  to_label ls j || some_ (target (snd j) (if fst j then con k else brk k)).

Lemma forallb_ext {T : Type} (f g : T -> bool) : (forall x, f x = g x) -> forall l, forallb f l = forallb g l.
Proof. intros H l. induction l as [|x l IH]; cbn; [reflexivity|]. rewrite H, IH. reflexivity. Qed.

Lemma okj_enter k n ls l j : okj [] (enter k n ls false l) j = okj ls k j.
Proof.
  destruct j as [[|] [x|]]; unfold okj; cbn [fst snd to_label existsb orb enter brk con]; auto.
  - rewrite target_mine. cbn. destruct (existsb (Nat.eqb x) ls); reflexivity.
Qed.

Lemma okj_switch k n ls l js :
  forallb (okj [] (enter k n ls true l)) js =
  forallb (okj ls k) (filter (fun j => negb (match j with (false, None) => true | _ => false end)) js).
Proof.
  induction js as [|j js IH]; [reflexivity|]. cbn [forallb filter]. rewrite IH.
  destruct j as [[|] [x|]]; cbn [negb forallb]; auto.
  f_equal. unfold okj. cbn [fst snd to_label existsb orb enter brk con]. rewrite target_mine. cbn.
  destruct (existsb (Nat.eqb x) ls); reflexivity.
Qed.

Lemma okj_loop k n m ls lb lc js :
  forallb (okj [] (enter_loop k n m ls lb lc)) js = forallb (okj ls k) (filter (fun j => negb (mine ls j)) js).
Proof.
  induction js as [|j js IH]; [reflexivity|]. cbn [forallb filter]. rewrite IH.
  destruct j as [[|] [x|]]; unfold okj at 1; cbn [fst snd to_label existsb orb enter_loop brk con mine];
    rewrite target_mine; cbn [j_plain j_names negb some_ andb]; auto.
  - destruct (existsb (Nat.eqb x) ls) eqn:E; cbn [negb some_ andb forallb]; [reflexivity|].
    reflexivity.
  - cbn [forallb]. f_equal. unfold okj. cbn. destruct (existsb (Nat.eqb x) ls); reflexivity.
Qed.

Lemma okj_label k ls x js :
  forallb (okj (x :: ls) k) js =
  forallb (okj ls k) (filter (fun j => negb (match j with (false, Some y) => Nat.eqb x y | _ => false end)) js).
Proof.
  induction js as [|j js IH]; [reflexivity|]. cbn [forallb filter]. rewrite IH.
  destruct j as [[|] [y|]]; cbn [negb forallb]; auto.
  unfold okj at 1. cbn [fst snd to_label existsb]. rewrite (Nat.eqb_sym y x).
  destruct (Nat.eqb x y) eqn:E; cbn [orb negb andb forallb]; reflexivity.
Qed.

Lemma okj_none k ls js : forallb (fun j => negb (to_label ls j)) js = true ->
  forallb (okj [] k) js = forallb (okj ls k) js.
Proof.
  induction js as [|j js IH]; [reflexivity|]. cbn [forallb]. intros H. apply andb_prop in H. destruct H as [H1 H2].
  rewrite (IH H2). f_equal. unfold okj. apply negb_true_iff in H1. rewrite H1.
  destruct j as [[|] [x|]]; reflexivity.
Qed.

Lemma some_map {T U : Type} (o : option T) (f : T -> option U) b c :
  some_ o = b -> (forall x, o = Some x -> some_ (f x) = c) ->
  some_ (match o with Some x => f x | None => None end) = b && c.
Proof. intros <- H. destruct o as [x|]; cbn; auto. Qed.

Lemma stmt_nop s : s = Nop \/ s <> Nop.
Proof. destruct s; auto; right; discriminate. Qed.

Lemma gen_block d s : s <> Nop -> forall ls k n, gen ls k (Block d s) n =
  match gen [] (enter k 1 ls false n) s (n + 1) with
  | None => None
  | Some (c, n1) => Some (IScope d :: c ++ [IStub n; IPop], n1)
  end.
Proof. intros H ls k n. destruct s; try reflexivity. congruence. Qed.

Lemma accepted_both :
  (forall s ls k n, heard ls s = true -> some_ (gen ls k s n) = forallb (okj ls k) (jumps ls s)) /\
  (forall cs k l n, heard_cases cs = true -> some_ (gen_cases k cs l n) = forallb (okj [] k) (jumps_cases cs)).
Proof.
  assert (ONE : forall (o : option (list instr * nat)) (f : list instr -> nat -> list instr * nat) b,
    some_ o = b -> some_ (match o with Some (c, m) => Some (f c m) | None => None end) = b)
    by (intros [[c m]|] f b <-; reflexivity).
  apply stmt_cases_ind.
  - reflexivity.
  - reflexivity.
  - intros e ls k n _. cbn. destruct (rv k); reflexivity.
  - reflexivity.
  - intros a IHa b IHb ls k n H. cbn [heard] in H. apply andb_prop in H. destruct H as [H H4].
    apply andb_prop in H. destruct H as [H H3]. apply andb_prop in H. destruct H as [H1 H2].
    cbn [gen jumps]. rewrite forallb_app, <- !(okj_none k ls) by assumption.
    specialize (IHa [] k n H1). rewrite <- IHa. destruct (gen [] k a n) as [[c1 n1]|]; [|reflexivity].
    specialize (IHb [] k n1 H2). rewrite <- IHb. destruct (gen [] k b n1) as [[c2 n2]|]; reflexivity.
  - intros d s IH ls k n H. destruct (stmt_nop s) as [->|HN]; [reflexivity|]. rewrite (gen_block d s HN).
    change (jumps ls (Block d s)) with (jumps [] s).
    rewrite <- (forallb_ext _ _ (okj_enter k 1 ls n)). apply ONE, IH, H.
  - intros e a IHa b IHb ls k n H. cbn [heard] in H. apply andb_prop in H. destruct H as [H H3].
    apply andb_prop in H. destruct H as [H1 H2].
    cbn [gen jumps]. cbv zeta. rewrite forallb_app, <- (okj_none k ls (jumps [] b)) by assumption.
    rewrite <- (forallb_ext _ _ (okj_enter k 0 ls (n + 2))).
    rewrite <- (IHa [] (enter k 0 ls false (n + 2)) (n + 3) H1).
    destruct (gen [] _ a _) as [[c1 n1]|]; [|reflexivity].
    rewrite <- (IHb [] k n1 H2). destruct (gen [] k b n1) as [[c2 n2]|]; reflexivity.
  - intros s IH e ls k n H. cbn [gen jumps]. cbv zeta. rewrite <- (okj_loop k 0 0 ls (n + 2) (n + 3)). apply ONE, IH, H.
  - intros e s IH ls k n H. cbn [gen jumps]. cbv zeta. rewrite <- (okj_loop k 0 0 ls (n + 2) (n + 1)). apply ONE, IH, H.
  - intros d i t st s IH ls k n H. cbn [gen jumps]. cbv zeta. rewrite <- (okj_loop k (one d) 0 ls (n + 2) (n + 1)). apply ONE, IH, H.
  - intros cl d e b s IH ls k n H. cbn [gen jumps]. cbv zeta. rewrite <- (okj_loop k 1 (one d) ls (n + 2) (n + 1)). apply ONE, IH, H.
  - intros d e cs IH ls k n H. rewrite gen_switch.
    change (jumps ls (Switch d e cs)) with (filter (fun j : bool * option nat => negb (match j with (false, None) => true | _ => false end)) (jumps_cases cs)).
    rewrite <- (okj_switch k (one d) ls (n + 1)). apply ONE, IH, H.
  - intros e d s IH ls k n H. cbn [gen jumps]. cbv zeta. rewrite <- (forallb_ext _ _ (okj_enter k 1 ls (n + 1))). apply ONE, IH, H.
  - intros x s IH ls k n H. cbn [gen jumps heard] in *. rewrite <- okj_label. apply IH, H.
  - intros t ls k n _. cbn [gen jumps forallb]. rewrite andb_true_r. unfold okj. cbn [fst snd to_label].
    destruct t as [x|]; cbn [to_label].
    + destruct (existsb (Nat.eqb x) ls); [reflexivity|]. destruct (target (Some x) (brk k)); reflexivity.
    + destruct (target None (brk k)); reflexivity.
  - intros t ls k n _. cbn [gen jumps forallb]. rewrite andb_true_r. unfold okj. cbn [fst snd to_label].
    destruct (target t (con k)), t; reflexivity.
  - intros [e|] ls k n _; reflexivity.
  - reflexivity.
  - intros b IHb hc p c IHc hf f IHf ls k n H. rewrite gen_try. cbn [jumps].
    cbn [heard] in H. apply andb_prop in H. destruct H as [H H3]. apply andb_prop in H. destruct H as [H1 H2].
    rewrite !forallb_app.
    rewrite <- (forallb_ext _ _ (okj_enter k 1 ls (n + 3)) (jumps [] b)).
    rewrite <- (IHb [] (enter k 1 ls false (n + 3)) (n + 6) H1).
    destruct (gen [] _ b _) as [[cb n1]|]; [|reflexivity]. cbn [some_ andb].
    assert (UND : forall m r j, okj [] (with_rv (under k m) r) j = okj [] k j) by reflexivity.
    assert (UND' : forall m j, okj [] (under k m) j = okj [] k j) by reflexivity.
    assert (EC : some_ (if hc then gen [] (under k (1 + one p)) c n1 else Some ([], n1)) =
                 forallb (okj ls k) (if hc then jumps [] c else [])).
    { destruct hc; [|reflexivity]. apply andb_prop in H2. destruct H2 as [H2 H4].
      rewrite <- (okj_none k ls) by exact H4. apply (IHc [] (under k (1 + one p)) n1 H2). }
    rewrite <- EC. destruct (if hc then gen [] (under k (1 + one p)) c n1 else Some ([], n1)) as [[cc n2]|]; [|reflexivity].
    cbn [some_ andb].
    match goal with |- some_ (match ?o with _ => _ end) = _ => assert (EF : some_ o = forallb (okj ls k) (if hf then jumps [] f else [])) end.
    { destruct hf; [|reflexivity]. apply andb_prop in H3. destruct H3 as [H3 H4].
      rewrite <- (okj_none k ls) by exact H4. apply (IHf [] (with_rv (under k 1) _) n2 H3). }
    rewrite <- EF. match goal with |- _ = some_ ?o => destruct o as [[cf n3]|] end; reflexivity.
  - reflexivity.
  - intros t s IHs r IHr k l n H. rewrite gen_cases_cons. cbn [jumps_cases heard_cases] in *.
    apply andb_prop in H. destruct H as [H1 H2]. rewrite forallb_app.
    rewrite <- (IHs [] k n H1). destruct (gen [] k s n) as [[c1 n1]|]; [|reflexivity].
    rewrite <- (IHr k (l + 3) n1 H2). destruct (gen_cases k r (l + 3) n1) as [[c2 n2]|]; reflexivity.
Qed.

Lemma okj_more k ls js : forallb (okj [] k) js = true -> forallb (okj ls k) js = true.
Proof.
  rewrite !forallb_forall. intros H j Hj. specialize (H j Hj). unfold okj in *.
  destruct j as [[|] [x|]]; cbn [fst snd to_label existsb orb] in *; rewrite ?H, ?orb_true_r; reflexivity.
Qed.

(** What gets code has no stray jumps. *)
Lemma accepted_sound :
  (forall s ls k n r, gen ls k s n = Some r -> forallb (okj ls k) (jumps ls s) = true) /\
  (forall cs k l n r, gen_cases k cs l n = Some r -> forallb (okj [] k) (jumps_cases cs) = true).
Proof.
  apply stmt_cases_ind; try reflexivity.
  - intros a IHa b IHb ls k n r H. cbn [gen] in H.
    destruct (gen [] k a n) as [[c1 n1]|] eqn:Ea; [|discriminate].
    destruct (gen [] k b n1) as [[c2 n2]|] eqn:Eb; [|discriminate].
    cbn [jumps]. rewrite forallb_app, (okj_more k ls _ (IHa _ _ _ _ Ea)), (okj_more k ls _ (IHb _ _ _ _ Eb)). reflexivity.
  - intros d s IH ls k n r H.
    destruct (stmt_nop s) as [->|HN]; [reflexivity|]. rewrite (gen_block d s HN) in H.
    destruct (gen [] _ s _) as [[c1 n1]|] eqn:E; [|discriminate].
    change (jumps ls (Block d s)) with (jumps [] s). rewrite <- (forallb_ext _ _ (okj_enter k 1 ls n)). eapply IH; eauto.
  - intros e a IHa b IHb ls k n r H. cbn [gen] in H. cbv zeta in H.
    destruct (gen [] _ a _) as [[c1 n1]|] eqn:Ea; [|discriminate].
    destruct (gen [] k b n1) as [[c2 n2]|] eqn:Eb; [|discriminate].
    cbn [jumps]. rewrite forallb_app, (okj_more k ls _ (IHb _ _ _ _ Eb)), andb_true_r.
    rewrite <- (forallb_ext _ _ (okj_enter k 0 ls (n + 2))). eapply IHa; eauto.
  - intros s IH e ls k n r H. cbn [gen] in H. cbv zeta in H. cbn [jumps].
    destruct (gen [] _ s _) as [[c1 n1]|] eqn:E; [|discriminate].
    rewrite <- (okj_loop k 0 0 ls (n + 2) (n + 3)). eapply IH; eauto.
  - intros e s IH ls k n r H. cbn [gen] in H. cbv zeta in H. cbn [jumps].
    destruct (gen [] _ s _) as [[c1 n1]|] eqn:E; [|discriminate].
    rewrite <- (okj_loop k 0 0 ls (n + 2) (n + 1)). eapply IH; eauto.
  - intros d i t st s IH ls k n r H. cbn [gen] in H. cbv zeta in H. cbn [jumps].
    destruct (gen [] _ s _) as [[c1 n1]|] eqn:E; [|discriminate].
    rewrite <- (okj_loop k (one d) 0 ls (n + 2) (n + 1)). eapply IH; eauto.
  - intros cl d e b s IH ls k n r H. cbn [gen] in H. cbv zeta in H. cbn [jumps].
    destruct (gen [] _ s _) as [[c1 n1]|] eqn:E; [|discriminate].
    rewrite <- (okj_loop k 1 (one d) ls (n + 2) (n + 1)). eapply IH; eauto.
  - intros d e cs IH ls k n r H. rewrite gen_switch in H. 
    destruct (gen_cases _ cs _ _) as [[c1 n1]|] eqn:E; [|discriminate].
    change (jumps ls (Switch d e cs)) with (filter (fun j : bool * option nat => negb (match j with (false, None) => true | _ => false end)) (jumps_cases cs)).
    rewrite <- (okj_switch k (one d) ls (n + 1)). eapply IH; eauto.
  - intros e d s IH ls k n r H. cbn [gen] in H. cbv zeta in H. cbn [jumps].
    destruct (gen [] _ s _) as [[c1 n1]|] eqn:E; [|discriminate].
    rewrite <- (forallb_ext _ _ (okj_enter k 1 ls (n + 1))). eapply IH; eauto.
  - intros x s IH ls k n r H. cbn [gen] in H. cbn [jumps]. rewrite <- okj_label. eapply IH; eauto.
  - intros t ls k n r H. pose proof (proj1 accepted_both (Break t) ls k n eq_refl) as HA. rewrite H in HA. symmetry. exact HA.
  - intros t ls k n r H. pose proof (proj1 accepted_both (Continue t) ls k n eq_refl) as HA. rewrite H in HA. symmetry. exact HA.
  - intros b IHb hc p c IHc hf f IHf ls k n r H. rewrite gen_try in H. cbn [jumps].
    destruct (gen [] _ b _) as [[cb n1]|] eqn:Eb; [|discriminate].
    destruct (if hc then gen [] (under k (1 + one p)) c n1 else Some ([], n1)) as [[cc n2]|] eqn:Ec; [|discriminate].
    match type of H with match ?o with _ => _ end = _ => destruct o as [[cf n3]|] eqn:Ef end; [|discriminate].
    rewrite !forallb_app, <- (forallb_ext _ _ (okj_enter k 1 ls (n + 3)) (jumps [] b)), (IHb _ _ _ _ Eb).
    replace (forallb (okj ls k) (if hc then jumps [] c else [])) with true
      by (destruct hc; [|reflexivity]; symmetry; apply okj_more; exact (IHc _ _ _ _ Ec)).
    replace (forallb (okj ls k) (if hf then jumps [] f else [])) with true
      by (destruct hf; [|reflexivity]; symmetry; apply okj_more; exact (IHf _ _ _ _ Ef)).
    reflexivity.
  - intros t s IHs r IHr k l n x H. rewrite gen_cases_cons in H. cbn [jumps_cases].
    destruct (gen [] k s n) as [[c1 n1]|] eqn:Ea; [|discriminate].
    destruct (gen_cases k r (l + 3) n1) as [[c2 n2]|] eqn:Eb; [|discriminate].
    rewrite forallb_app, (IHs _ _ _ _ Ea), (IHr _ _ _ _ Eb). reflexivity.
Qed.

Lemma okj_top r js : forallb (okj [] {| brk := []; con := []; dep := 0; rv := r |}) js =
  match js with [] => true | _ => false end.
Proof. destruct js as [|[[|] [x|]] js]; reflexivity. Qed.

Lemma accepted_function s : heard [] s = true -> (function_code s <> None <-> escapes s = false).
Proof.
  intros H. unfold function_code, escapes.
  pose proof (proj1 accepted_both s [] {| brk := []; con := []; dep := 0; rv := None |} 0 H) as HA.
  rewrite okj_top in HA. destruct (gen [] _ s 0), (jumps [] s); cbn in *; split; congruence.
Qed.

Lemma accepted_eval s : heard [] s = true -> (eval_code s <> None <-> escapes s = false).
Proof.
  intros H. unfold eval_code, escapes.
  pose proof (proj1 accepted_both s [] {| brk := []; con := []; dep := 0; rv := Some 0 |} 1 H) as HA.
  rewrite okj_top in HA. destruct (gen [] _ s 1), (jumps [] s); cbn in *; split; congruence.
Qed.

Lemma accepted_valid s : function_code s <> None \/ eval_code s <> None -> escapes s = false.
Proof.
  intros H. unfold escapes.
  assert (G : forall r n x, gen [] {| brk := []; con := []; dep := 0; rv := r |} s n = Some x -> jumps [] s = []).
  { intros r n x E. apply accepted_sound in E. rewrite okj_top in E. destruct (jumps [] s); congruence. }
  unfold function_code, eval_code in H.
  destruct H as [H|H]; destruct (gen [] _ s _) as [x|] eqn:E in H; try (cbn in H; congruence); rewrite (G _ _ _ E); reflexivity.
Qed.
