(** * Facts about generated code and about completions *)

From Coq Require Import List Bool Arith Lia.
From Verif Require Import FlowModel FlowSpec.
Import ListNotations.

Scheme stmt_ind2 := Induction for stmt Sort Prop
with cases_ind2 := Induction for cases Sort Prop.
Combined Scheme stmt_cases_ind from stmt_ind2, cases_ind2.

(** ** Labels of a piece of code *)

Fixpoint stubs (c : list instr) : list nat :=
  match c with
  | [] => []
  | IStub l :: r => l :: stubs r
  | _ :: r => stubs r
  end.

Lemma stubs_app a b : stubs (a ++ b) = stubs a ++ stubs b.
Proof. induction a as [|i a IH]; [reflexivity|]. destruct i; cbn; rewrite IH; reflexivity. Qed.

(** ** Labels are fresh *)

Definition cnt (l : nat) (c : list instr) : nat := count_occ Nat.eq_dec (stubs c) l.

Lemma cnt_app l a b : cnt l (a ++ b) = cnt l a + cnt l b.
Proof. unfold cnt. rewrite stubs_app. apply count_occ_app. Qed.

Lemma cnt_stub l x r : cnt l (IStub x :: r) = (if Nat.eqb l x then 1 else 0) + cnt l r.
Proof.
  unfold cnt. cbn. destruct (Nat.eq_dec x l) as [->|N].
  - rewrite Nat.eqb_refl. reflexivity.
  - destruct (Nat.eqb_spec l x); [congruence|reflexivity].
Qed.

Lemma cnt_nil l : cnt l [] = 0.
Proof. reflexivity. Qed.

Lemma cnt_other l i r : (forall x, i <> IStub x) -> cnt l (i :: r) = cnt l r.
Proof. intros H. unfold cnt. destruct i; try reflexivity. destruct (H l0 eq_refl). Qed.

Definition within (n n' : nat) (c : list instr) : Prop :=
  n <= n' /\ forall l, (l < n \/ n' <= l -> cnt l c = 0) /\ cnt l c <= 1.

Lemma cnt_tests l rid cs n : cnt l (tests rid cs n) = 0.
Proof.
  revert n. induction cs as [|[e|] s r IH]; intros n; [reflexivity| |]; cbn; apply IH.
Qed.

Lemma cnt_jump l d src j : cnt l (jump_code d src j) = 0.
Proof.
  unfold jump_code. rewrite !cnt_app.
  assert (cnt l (repeat IPop (d - j_dep j)) = 0) as -> by (induction (d - j_dep j); auto).
  assert (cnt l (dup_to src (j_rv j)) = 0) as ->
    by (unfold dup_to; destruct src as [a|], (j_rv j) as [b|]; auto; destruct (a =? b); reflexivity).
  reflexivity.
Qed.

Lemma cnt_clear l r : cnt l (clear r) = 0.
Proof. destruct r; reflexivity. Qed.
Lemma cnt_scope l r : cnt l (scope r) = 0.
Proof. destruct r; reflexivity. Qed.
Lemma cnt_unscope l r : cnt l (unscope r) = 0.
Proof. destruct r; reflexivity. Qed.
Lemma cnt_next l r : cnt l (next_scope r) = 0.
Proof. destruct r; reflexivity. Qed.
Lemma cnt_opt l (o : option nat) (f : nat -> list instr) :
  (forall e, cnt l (f e) = 0) -> cnt l (match o with Some e => f e | None => [] end) = 0.
Proof. destruct o; auto. Qed.
Lemma cnt_catch l p r : cnt l (catch_head p r) = 0.
Proof. destruct p as [[d b]|]; reflexivity. Qed.

Ltac cnts :=
  repeat first [ rewrite cnt_app | rewrite cnt_stub | rewrite cnt_nil | rewrite cnt_clear
               | rewrite cnt_scope | rewrite cnt_unscope | rewrite cnt_next | rewrite cnt_tests
               | rewrite cnt_catch | rewrite cnt_jump
               | rewrite cnt_other by (intros; discriminate)
               | rewrite cnt_opt by (intros; reflexivity) ].

Ltac eqs :=
  repeat match goal with |- context [Nat.eqb ?a ?b] => destruct (Nat.eqb_spec a b) end.

Ltac use l := repeat match goal with H : within ?a ?b ?c |- _ => destruct H as [? H]; specialize (H l) end.

Lemma gen_within_both :
  (forall s ls k n cs n', gen ls k s n = Some (cs, n') -> within n n' cs) /\
  (forall cs k l n c n', gen_cases k cs l n = Some (c, n') -> l + cases_len cs <= n ->
     n <= n' /\ forall x, (x < l \/ l + cases_len cs <= x < n \/ n' <= x -> cnt x c = 0) /\ cnt x c <= 1).
Proof.
  apply stmt_cases_ind.
  - intros ls k n cs n' [= <- <-]. split; [lia|]. intros l. cnts. lia.
  - intros ls k n cs n' [= <- <-]. split; [lia|]. intros l. cnts. lia.
  - intros e ls k n cs n' H. cbn in H. destruct (rv k); injection H as <- <-; (split; [lia|]); intros l; cnts; lia.
  - intros e ls k n cs n' [= <- <-]. split; [lia|]. intros l. cnts. lia.
  - intros s1 IH1 s2 IH2 ls k n cs n' H. cbn in H.
    destruct (gen [] k s1 n) as [[c1 n1]|] eqn:E1; [|discriminate].
    destruct (gen [] k s2 n1) as [[c2 n2]|] eqn:E2; [|discriminate]. injection H as <- <-.
    apply IH1 in E1. apply IH2 in E2. destruct E1 as [L1 E1], E2 as [L2 E2]. split; [lia|].
    intros l. specialize (E1 l). specialize (E2 l). cnts. lia.
  - intros d s IH ls k n cs n' H. cbn [gen] in H.
    assert (G : match gen [] (enter k 1 ls false n) s (n + 1) with
                | Some (c, n1) => Some (IScope d :: c ++ [IStub n; IPop], n1)
                | None => None end = Some (cs, n') \/ (cs, n') = ([], n)).
    { destruct s; auto. right. congruence. }
    clear H. destruct G as [H|H].
    + destruct (gen [] (enter k 1 ls false n) s (n + 1)) as [[c1 n1]|] eqn:E1; [|discriminate].
      injection H as <- <-. apply IH in E1. destruct E1 as [L1 E1]. split; [lia|].
      intros l. specialize (E1 l). cnts. eqs; lia.
    + injection H as -> ->. split; [lia|]. intros l. cnts. lia.
  - intros e s1 IH1 s2 IH2 ls k n cs n' H. cbn in H.
    destruct (gen [] _ s1 (n + 3)) as [[c1 n1]|] eqn:E1; [|discriminate].
    destruct (gen [] k s2 n1) as [[c2 n2]|] eqn:E2; [|discriminate]. injection H as <- <-.
    apply IH1 in E1. apply IH2 in E2. destruct E1 as [L1 E1], E2 as [L2 E2]. split; [lia|].
    intros l. specialize (E1 l). specialize (E2 l). cnts. eqs; lia.
  - intros s IH e ls k n cs n' H. cbn in H.
    destruct (gen [] _ s (n + 4)) as [[c1 n1]|] eqn:E1; [|discriminate]. injection H as <- <-.
    apply IH in E1. destruct E1 as [L1 E1]. split; [lia|]. intros l. specialize (E1 l). cnts. eqs; lia.
  - intros e s IH ls k n cs n' H. cbn in H.
    destruct (gen [] _ s (n + 3)) as [[c1 n1]|] eqn:E1; [|discriminate]. injection H as <- <-.
    apply IH in E1. destruct E1 as [L1 E1]. split; [lia|]. intros l. specialize (E1 l). cnts. eqs; lia.
  - intros d init test step s IH ls k n cs n' H. cbn [gen] in H. cbv zeta in H.
    destruct (gen [] _ s (n + 6)) as [[c1 n1]|] eqn:E1; [|discriminate]. injection H as <- <-.
    apply IH in E1. destruct E1 as [L1 E1]. split; [lia|]. intros l. specialize (E1 l). cnts. eqs; lia.
  - intros cl d e b s IH ls k n cs n' H. cbn [gen] in H. cbv zeta in H.
    destruct (gen [] _ s (n + 5)) as [[c1 n1]|] eqn:E1; [|discriminate]. injection H as <- <-.
    apply IH in E1. destruct E1 as [L1 E1]. split; [lia|]. intros l. specialize (E1 l). cnts. eqs; lia.
  - intros d e cases0 IH ls k n cs n' H. cbn [gen] in H. cbv zeta in H.
    destruct (gen_cases _ cases0 _ _) as [[c1 n1]|] eqn:E1; [|discriminate]. injection H as <- <-.
    apply IH in E1; [|lia]. destruct E1 as [L1 E1]. split; [lia|]. intros l. specialize (E1 l). cnts. eqs; lia.
  - intros e d s IH ls k n cs n' H. cbn in H.
    destruct (gen [] _ s (n + 2)) as [[c1 n1]|] eqn:E1; [|discriminate]. injection H as <- <-.
    apply IH in E1. destruct E1 as [L1 E1]. split; [lia|]. intros l. specialize (E1 l). cnts. eqs; lia.
  - intros x s IH ls k n cs n' H. cbn in H. apply IH in H. exact H.
  - intros t ls k n cs n' H. cbn in H.
    destruct (match t with Some x => existsb (Nat.eqb x) ls | None => false end).
    + injection H as <- <-. split; [lia|]. intros l. cnts. lia.
    + destruct (target t (brk k)); [|discriminate]. injection H as <- <-. split; [lia|].
      intros l. cnts. lia.
  - intros t ls k n cs n' H. cbn in H.
    destruct (target t (con k)); [|discriminate]. injection H as <- <-. split; [lia|].
    intros l. cnts. lia.
  - intros [e|] ls k n cs n' [= <- <-]; (split; [lia|]); intros l; cnts; lia.
  - intros e ls k n cs n' [= <- <-]. split; [lia|]. intros l. cnts. lia.
  - intros b IHb hc p c IHc hf f IHf ls k n cs n' H. cbn [gen] in H. cbv zeta in H.
    destruct (gen [] _ b (n + 6)) as [[cb n1]|] eqn:E1; [|discriminate].
    destruct (if hc then _ else _) as [[cc n2]|] eqn:E2; [|discriminate].
    destruct (if hf then _ else _) as [[cf n3]|] eqn:E3; [|discriminate]. injection H as <- <-.
    apply IHb in E1. destruct E1 as [L1 E1].
    assert (within n1 n2 cc) as [L2 E2'].
    { destruct hc; [apply IHc in E2; exact E2|]. injection E2 as <- <-. split; [lia|]. intros l. cnts. lia. }
    assert (within n2 n3 cf) as [L3 E3'].
    { destruct hf; [apply IHf in E3; exact E3|]. injection E3 as <- <-. split; [lia|]. intros l. cnts. lia. }
    split; [lia|]. intros l. specialize (E1 l). specialize (E2' l). specialize (E3' l).
    destruct hc, hf, p as [[d0 b0]|]; cbn [app]; cnts; eqs; lia.
  - intros k l n c n' [= <- <-] L. split; [lia|]. intros x. cnts. lia.
  - intros t s IHs r IHr k l n c n' H L. cbn in H. cbn [cases_len] in L |- *.
    destruct (gen [] k s n) as [[c1 n1]|] eqn:E1; [|discriminate].
    destruct (gen_cases k r (l + 3) n1) as [[c2 n2]|] eqn:E2; [|discriminate]. injection H as <- <-.
    apply IHs in E1. destruct E1 as [L1 E1]. apply IHr in E2; [|lia]. destruct E2 as [L2 E2].
    split; [lia|]. intros x. specialize (E1 x). specialize (E2 x). cnts. eqs; lia.
Qed.

Lemma gen_le s ls k n cs n' : gen ls k s n = Some (cs, n') -> n <= n'.
Proof. intros H. apply gen_within_both in H. apply H. Qed.

Lemma gen_cases_le cs k l n c n' : gen_cases k cs l n = Some (c, n') -> l + cases_len cs <= n -> n <= n'.
Proof. intros H L. apply gen_within_both in H; [|exact L]. apply H. Qed.

Lemma within_nodup n n' c : within n n' c -> NoDup (stubs c).
Proof. intros [_ H]. apply (NoDup_count_occ Nat.eq_dec). intros x. apply H. Qed.

(** ** Conditions on parts *)

Lemma every_here f s : every f s = true -> f s = true.
Proof. destruct s; cbn; intros H; apply andb_prop in H; tauto. Qed.

(** ** What completions are possible *)

Section Compl.

Variable A : world.

Local Notation W := (W A).
Local Notation V := (V A).
Local Notation completion := (completion A).

Variable fuel : nat.

Lemma rounds_inv {B : Type} (P : completion -> Prop) (turn : B -> W -> option (W * (B + completion))) :
  (forall b w w' cm, turn b w = Some (w', inr cm) -> P cm) ->
  forall n b w w' cm, rounds A n turn b w = Some (w', cm) -> P cm.
Proof.
  intros HT. induction n as [|n IH]; intros b w w' cm H; cbn in H; [discriminate|].
  destruct (turn b w) as [[w1 [b'|c1]]|] eqn:E; [eauto| |discriminate].
  injection H as <- <-. eauto.
Qed.

Definition not_ret (cm : completion) : Prop := match cm with Ret _ _ => False | _ => True end.

Lemma not_ret_update cm v : not_ret cm -> not_ret (update_empty A cm v).
Proof. destruct cm; auto. Qed.

Lemma not_ret_breakable cm : not_ret cm -> not_ret (breakable A cm).
Proof. destruct cm as [|[t|]| | |]; auto. Qed.

Lemma not_ret_close cl it cm w w' cm' :
  iterator_close A cl it cm w = (w', cm') -> not_ret cm -> not_ret cm'.
Proof.
  unfold iterator_close. destruct cl; [|congruence].
  destruct (w_close A it w) as [[w1 [u|v]] o], cm; cbn; intros [= <- <-]; cbn; auto.
Qed.

Lemma exec_switch env ls d e cs w :
  exec A fuel env ls (Switch d e cs) w =
  ok A (w_eval A e env w) (throws A) (fun w1 v =>
    let (w2, env') := in_scope A d env w1 in
    match select A v env' cs w2 with
    | (w3, inr e) => Some (w3, Thr A e)
    | (w3, inl o) =>
        match (match o with Some i => Some i | None => default_index cs end) with
        | None => Some (w3, Normal A (Some (undef A)))
        | Some i =>
            match exec_cases A fuel env' cs i (undef A) w3 with
            | Some (w', c) => Some (w', breakable A c)
            | None => None
            end
        end
    end).
Proof. reflexivity. Qed.

Lemma exec_cases_skip env t s r i v w :
  exec_cases A fuel env (CCons t s r) (S i) v w = exec_cases A fuel env r i v w.
Proof. reflexivity. Qed.

Lemma exec_cases_here env t s r v w :
  exec_cases A fuel env (CCons t s r) 0 v w =
  match exec A fuel env [] s w with
  | Some (w1, Normal _ v1) => exec_cases A fuel env r 0 (match v1 with Some x => x | None => v end) w1
  | Some (w1, c) => Some (w1, update_empty A c (Some v))
  | None => None
  end.
Proof. reflexivity. Qed.

(** Jumps of a completion, checked against what may leave a statement. *)
Definition jumps_ok (js : list (bool * option nat)) (cm : completion) : Prop :=
  match cm with
  | Brk _ t _ => In (false, t) js
  | Cont _ t _ => In (true, t) js
  | _ => True
  end.

Definition may (nr : bool) (js : list (bool * option nat)) (cm : completion) : Prop :=
  (nr = true -> not_ret cm) /\ jumps_ok js cm.

Lemma may_update nr js cm v : may nr js cm -> may nr js (update_empty A cm v).
Proof. destruct cm; auto. Qed.

Lemma may_sub nr nr' js js' cm :
  (nr' = true -> nr = true) -> incl js js' -> may nr js cm -> may nr' js' cm.
Proof. intros H1 H2 [H3 H4]. split; [auto|]. destruct cm; cbn in *; auto. Qed.

Lemma may_close nr js cl it cm w w' cm' :
  iterator_close A cl it cm w = (w', cm') -> may nr js cm -> may nr js cm'.
Proof.
  unfold iterator_close. destruct cl; [|congruence].
  destruct (w_close A it w) as [[w1 [u|v]] o], cm; cbn; intros [= <- <-] H; auto; split; cbn; auto.
Qed.

Lemma may_loop nr ls js cm v :
  may nr js cm -> loop_continues A cm ls = false ->
  may nr (filter (fun j => negb (mine ls j)) js) (breakable A (update_empty A cm (Some v))).
Proof.
  intros [H1 H2] HL. destruct cm as [ov|[t|] ov|[t|] ov|v0|e]; cbn in *; try discriminate;
    split; cbn; auto.
  - apply filter_In. auto.
  - apply filter_In. split; [exact H2|]. cbn. rewrite HL. reflexivity.
Qed.

Lemma every_sub f s : every f s = true ->
  match s with
  | Seq a b | If _ a b => every f a = true /\ every f b = true
  | Block _ s | With _ _ s | Labelled _ s => every f s = true
  | DoWhile s _ | While _ s | For _ _ _ _ s | ForOf _ _ _ _ s => every f s = true
  | Switch _ _ cs => every_case f cs = true
  | Try b hc _ c hf g => every f b = true /\ (hc = true -> every f c = true) /\ (hf = true -> every f g = true)
  | _ => True
  end.
Proof.
  destruct s; cbn; intros H; apply andb_prop in H; destruct H as [H1 H2]; auto;
    try (apply andb_prop in H2; destruct H2; auto; fail).
  apply andb_prop in H2. destruct H2 as [H2 H3]. apply andb_prop in H2. destruct H2 as [H2 H4].
  destruct hc, hf; auto using diff_false_true; repeat split; auto; discriminate.
Qed.

Lemma exec_may_both :
  (forall s env ls w w' cm, exec A fuel env ls s w = Some (w', cm) -> may (no_return s) (jumps ls s) cm) /\
  (forall cs env i v w w' cm, exec_cases A fuel env cs i v w = Some (w', cm) ->
     may (every_case (fun s => match s with Return _ => false | _ => true end) cs) (jumps_cases cs) cm).
Proof.
  assert (MT : forall nr js v, may nr js (Thr A v)) by (intros; split; cbn; auto).
  assert (MN : forall nr js v, may nr js (Normal A v)) by (intros; split; cbn; auto).
  assert (LOOP : forall nr ls js {B} (turn : B -> W -> option (W * (B + completion))),
     (forall b w w' cm, turn b w = Some (w', inr cm) ->
        (exists v, cm = Normal A v) \/ (exists v, cm = Thr A v) \/
        exists c1 v, may nr js c1 /\ loop_continues A c1 ls = false /\ cm = update_empty A c1 (Some v)) ->
     forall b w w' cm,
     match rounds A fuel turn b w with
     | Some (w', c) => Some (w', breakable A c) | None => None end = Some (w', cm) ->
     may nr (filter (fun j => negb (mine ls j)) js) cm).
  { intros nr ls js B turn HT b w w' cm H.
    destruct (rounds A fuel turn b w) as [[w1 c1]|] eqn:E; [|discriminate]. injection H as <- <-.
    revert E. apply (rounds_inv (fun c1 => may nr (filter (fun j => negb (mine ls j)) js) (breakable A c1))).
    intros b0 w0 w2 c2 H2. destruct (HT _ _ _ _ H2) as [[v ->]|[[v ->]|(c3 & v & M & L & ->)]]; cbn; auto.
    apply may_loop; auto. }
  apply stmt_cases_ind.
  - intros env ls w w' cm [= <- <-]. auto.
  - intros env ls w w' cm [= <- <-]. auto.
  - intros e env ls w w' cm H. cbn in H. destruct (w_eval A e env w) as [[w1 [v|v]] o]; injection H as <- <-; auto.
  - intros e env ls w w' cm H. cbn in H. destruct (w_eval A e env w) as [[w1 [v|v]] o]; injection H as <- <-; auto.
  - intros s1 IH1 s2 IH2 env ls w w' cm H. cbn [exec] in H.
    destruct (exec A fuel env [] s1 w) as [[w1 c1]|] eqn:E1; [|discriminate].
    apply IH1 in E1.
    assert (M1 : may (no_return (Seq s1 s2)) (jumps ls (Seq s1 s2)) c1).
    { eapply may_sub; [| |exact E1]; [intros HN; apply every_sub in HN; apply HN|]. intros x Hx. cbn. apply in_or_app; auto. }
    destruct c1 as [v1|t v1|t v1|v1|v1]; try (injection H as <- <-; exact M1).
    destruct (exec A fuel env [] s2 w1) as [[w2 c2]|] eqn:E2; [|discriminate]. injection H as <- <-.
    apply may_update. apply IH2 in E2. eapply may_sub; [| |exact E2]; [intros HN; apply every_sub in HN; apply HN|].
    intros x Hx. cbn. apply in_or_app; auto.
  - intros d s IH env ls w w' cm H. cbn [exec] in H.
    assert (G : (let (w1, x) := w_scope A d env w in exec A fuel (x :: env) [] s w1) = Some (w', cm) \/ cm = Normal A None).
    { destruct s; auto. right. congruence. }
    clear H. destruct G as [H| ->]; [|auto].
    destruct (w_scope A d env w) as [w1 x]. apply IH in H.
    eapply may_sub; [| |exact H]; [intros HN; apply every_sub in HN; apply HN|apply incl_refl].
  - intros e s1 IH1 s2 IH2 env ls w w' cm H. cbn [exec] in H.
    destruct (w_eval A e env w) as [[w1 [v|v]] o]; cbn in H; [|injection H as <- <-; auto].
    destruct (truthy A v).
    + destruct (exec A fuel env [] s1 w1) as [[w2 c2]|] eqn:E; [|discriminate]. injection H as <- <-.
      apply may_update. apply IH1 in E. eapply may_sub; [| |exact E]; [intros HN; apply every_sub in HN; apply HN|].
      intros x Hx. cbn. apply in_or_app; auto.
    + destruct (exec A fuel env [] s2 w1) as [[w2 c2]|] eqn:E; [|discriminate]. injection H as <- <-.
      apply may_update. apply IH2 in E. eapply may_sub; [| |exact E]; [intros HN; apply every_sub in HN; apply HN|].
      intros x Hx. cbn. apply in_or_app; auto.
  - intros s IH e env ls w w' cm H. cbn [exec] in H.
    assert (HN : no_return (DoWhile s e) = no_return s) by reflexivity. rewrite HN. cbn [jumps].
    revert H. apply LOOP. intros v w0 w1 c1 H.
    destruct (exec A fuel env [] s w0) as [[w2 c2]|] eqn:E; [|discriminate].
    destruct (loop_continues A c2 ls) eqn:L.
    + destruct (w_eval A e env w2) as [[w3 [x|x]] o]; cbn in H.
      * destruct (truthy A x); [discriminate|]. injection H as <- <-. left. eauto.
      * injection H as <- <-. right; left; eauto.
    + injection H as <- <-. right; right. exists c2, v. apply IH in E. auto.
  - intros e s IH env ls w w' cm H. cbn [exec] in H.
    assert (HN : no_return (While e s) = no_return s) by reflexivity. rewrite HN. cbn [jumps].
    revert H. apply LOOP. intros v w0 w1 c1 H.
    destruct (w_eval A e env w0) as [[w3 [x|x]] o]; cbn in H; [|injection H as <- <-; right; left; eauto].
    destruct (truthy A x); [|injection H as <- <-; left; eauto].
    destruct (exec A fuel env [] s w3) as [[w2 c2]|] eqn:E; [|discriminate].
    destruct (loop_continues A c2 ls) eqn:L; [discriminate|].
    injection H as <- <-. right; right. exists c2, v. apply IH in E. auto.
  - intros d init test step s IH env ls w w' cm H. cbn [exec] in H.
    destruct (in_scope A d env w) as [w0 env0].
    assert (G : forall w1,
      (let (w2, env1) := fresh_copy A d env0 w1 in
        match rounds A fuel (fun (b : V * list nat) w =>
                let (v, env) := b in
                opt_eval A test env w (fun w e => Some (w, inr (Thr A e)))
                  (fun w x =>
                     if match x with Some x => truthy A x | None => true end then
                       match exec A fuel env [] s w with
                       | None => None
                       | Some (w1, c) =>
                           if loop_continues A c ls then
                             let (w2, env') := fresh_copy A d env w1 in
                             opt_eval A step env' w2 (fun w e => Some (w, inr (Thr A e)))
                               (fun w _ => Some (w, inl (carry A c v, env')))
                           else Some (w1, inr (update_empty A c (Some v)))
                       end
                     else Some (w, inr (Normal A (Some v))))) (undef A, env1) w2 with
        | Some (w', c) => Some (w', breakable A c)
        | None => None
        end) = Some (w', cm) -> may (no_return (For d init test step s)) (jumps ls (For d init test step s)) cm).
    { clear H. intros w1 H. destruct (fresh_copy A d env0 w1) as [w2 env1].
      assert (HN : no_return (For d init test step s) = no_return s) by reflexivity. rewrite HN. cbn [jumps].
      revert H. apply LOOP. intros [v e1] w3 w4 c1 H.
      assert (BODY : forall w3,
         match exec A fuel e1 [] s w3 with
         | None => None
         | Some (w1, c) =>
             if loop_continues A c ls then
               let (w2, env') := fresh_copy A d e1 w1 in
               opt_eval A step env' w2 (fun w e => Some (w, inr (Thr A e)))
                 (fun w _ => Some (w, inl (carry A c v, env')))
             else Some (w1, inr (update_empty A c (Some v)))
         end = Some (w4, inr c1) ->
         (exists v, c1 = Normal A v) \/ (exists v, c1 = Thr A v) \/
         exists c2 v, may (no_return s) (jumps [] s) c2 /\ loop_continues A c2 ls = false /\ c1 = update_empty A c2 (Some v)).
      { clear H. intros w5 H. destruct (exec A fuel e1 [] s w5) as [[w6 c2]|] eqn:E; [|discriminate].
        destruct (loop_continues A c2 ls) eqn:L.
        - destruct (fresh_copy A d e1 w6) as [w7 e2]. unfold opt_eval in H. destruct step as [e0|]; [|discriminate].
          destruct (w_eval A e0 e2 w7) as [[w8 [x|x]] o]; cbn in H; [discriminate|]. injection H as <- <-. right; left; eauto.
        - injection H as <- <-. right; right. exists c2, v. apply IH in E. auto. }
      unfold opt_eval at 1 in H. destruct test as [te|].
      - destruct (w_eval A te e1 w3) as [[w8 [x|x]] o]; cbn in H; [|injection H as <- <-; right; left; eauto].
        destruct (truthy A x); [apply (BODY w8 H)|]. injection H as <- <-. left; eauto.
      - apply (BODY w3 H). }
    unfold opt_eval at 1 in H. destruct init as [ie|]; [|apply (G _ H)].
    destruct (w_eval A ie env0 w0) as [[w8 [x|x]] o]; cbn [ok] in H; [apply (G _ H)|].
    injection H as <- <-; auto.
  - intros cl d e b s IH env ls w w' cm H. cbn [exec] in H.
    destruct (in_scope A d env w) as [w0 envh].
    destruct (w_eval A e envh w0) as [[w1 [x|x]] o]; cbn [ok] in H; [|injection H as <- <-; auto].
    destruct (w_open A cl x w1) as [[w2 [it|it]] o2]; cbn [ok] in H; [|injection H as <- <-; auto].
    assert (HN : no_return (ForOf cl d e b s) = true -> no_return s = true)
      by (intros HN; apply every_sub in HN; exact HN).
    eapply may_sub; [exact HN|apply incl_refl|]. cbn [jumps].
    destruct (rounds A fuel _ (undef A) w2) as [[w3 c3]|] eqn:E; [|discriminate]. injection H as <- <-.
    revert E. apply (rounds_inv (fun c1 => may (no_return s) (filter (fun j => negb (mine ls j)) (jumps [] s)) (breakable A c1))).
    intros v w4 w5 c1 H.
    destruct (w_next A it w4) as [[w6 [[y|]|y]] o3]; cbn [ok] in H;
      [|injection H as <- <-; cbn; auto|injection H as <- <-; cbn; auto].
    destruct (in_scope A d env w6) as [w7 env3].
    assert (TC : forall z w, exists w' z', iterator_close A cl it (Thr A z) w = (w', Thr A z')).
    { intros z w8. unfold iterator_close. destruct cl; eauto. destruct (w_close A it w8) as [[? [?|?]] ?]; eauto. }
    destruct (w_bind A b y env3 w7) as [[w8 [u|u]] o4]; cbn [ok] in H.
    + destruct (exec A fuel env3 [] s w8) as [[w9 c2]|] eqn:E2; [|discriminate].
      destruct (loop_continues A c2 ls) eqn:L; [discriminate|].
      destruct (iterator_close A cl it (update_empty A c2 (Some v)) w9) as [w10 c4] eqn:EC.
      injection H as <- <-. apply IH in E2.
      pose proof (may_loop _ _ _ _ v E2 L) as ML.
      unfold iterator_close in EC. destruct cl; [|injection EC as <- <-; exact ML].
      destruct (w_close A it w9) as [[? [?|?]] ?], (update_empty A c2 (Some v)) eqn:EU;
        injection EC as <- <-; try exact ML; cbn; auto.
    + destruct (TC u w8) as (w9 & z & EZ). rewrite EZ in H. injection H as <- <-. cbn; auto.
  - intros d e cs IH env ls w w' cm H. rewrite exec_switch in H.
    destruct (w_eval A e env w) as [[w1 [x|x]] o]; cbn [ok] in H; [|injection H as <- <-; auto].
    destruct (in_scope A d env w1) as [w2 env'].
    destruct (select A x env' cs w2) as [w3 [o1|er0]]; [|injection H as <- <-; auto].
    match type of H with match ?X with _ => _ end = _ => destruct X as [i|] end; [|injection H as <- <-; auto].
    destruct (exec_cases A fuel env' cs i (undef A) w3) as [[w4 c4]|] eqn:E; [|discriminate].
    injection H as <- <-. apply IH in E. destruct E as [E1 E2].
    assert (HN : no_return (Switch d e cs) = true -> every_case (fun s => match s with Return _ => false | _ => true end) cs = true)
      by (intros HN; apply every_sub in HN; exact HN).
    split.
    + intros N. specialize (E1 (HN N)). destruct c4 as [|[t|]| | |]; cbn in *; auto.
    + destruct c4 as [|[t|] ?|[t|] ?| |]; cbn in *; auto; apply filter_In; auto.
  - intros e d s IH env ls w w' cm H. cbn [exec] in H.
    destruct (w_eval A e env w) as [[w1 [x|x]] o]; cbn [ok] in H; [|injection H as <- <-; auto].
    destruct (w_with A d x env w1) as [[w2 [y|y]] o2]; cbn [ok] in H; [|injection H as <- <-; auto].
    destruct (exec A fuel (y :: env) [] s w2) as [[w3 c3]|] eqn:E; [|discriminate]. injection H as <- <-.
    apply may_update. apply IH in E. eapply may_sub; [| |exact E]; [intros HN; apply every_sub in HN; apply HN|apply incl_refl].
  - intros x s IH env ls w w' cm H. cbn [exec] in H.
    assert (HN : no_return (Labelled x s) = true -> no_return s = true)
      by (intros HN; apply every_sub in HN; exact HN).
    destruct (exec A fuel env (x :: ls) s w) as [[w1 c1]|] eqn:E; [|discriminate].
    apply IH in E. destruct E as [E1 E2].
    assert (G : forall c, c = c1 -> match c1 with Brk _ (Some y) _ => x <> y | _ => True end ->
              may (no_return (Labelled x s)) (jumps ls (Labelled x s)) c).
    { intros c -> NE. split; [intros N; exact (E1 (HN N))|].
      destruct c1 as [|[y|] ?|[y|] ?| |]; cbn in *; auto; apply filter_In; split; auto.
      destruct (Nat.eqb_spec x y); [contradiction|reflexivity]. }
    destruct c1 as [v1|[y|] v1|[y|] v1|v1|v1]; try (injection H as <- <-; apply G; cbn; auto; fail).
    destruct (Nat.eqb_spec x y); injection H as <- <-; [auto|]. apply G; auto.
  - intros t env ls w w' cm [= <- <-]. split; cbn; auto.
  - intros t env ls w w' cm [= <- <-]. split; cbn; auto.
  - intros e env ls w w' cm H. cbn in H. split; [discriminate|]. unfold opt_eval in H.
    destruct e as [e|]; [destruct (w_eval A e env w) as [[w1 [v|v]] o]; cbn in H|]; injection H as <- <-; cbn; auto.
  - intros e env ls w w' cm H. cbn in H. destruct (w_eval A e env w) as [[w1 [v|v]] o]; injection H as <- <-; auto.
  - intros b IHb hc p c IHc hf f IHf env ls w w' cm H. cbn [exec] in H. cbv zeta in H.
    set (nr := no_return (Try b hc p c hf f)) in *. set (js := jumps ls (Try b hc p c hf f)).
    assert (HNs : nr = true -> no_return b = true /\ (hc = true -> no_return c = true) /\ (hf = true -> no_return f = true))
      by (intros HN; apply every_sub in HN; exact HN).
    assert (Jb : incl (jumps [] b) js) by (intros x Hx; subst js; cbn; apply in_or_app; auto).
    assert (Jc : hc = true -> incl (jumps [] c) js)
      by (intros -> x Hx; subst js; cbn; apply in_or_app; right; apply in_or_app; auto).
    assert (Jf : hf = true -> incl (jumps [] f) js)
      by (intros -> x Hx; subst js; cbn; apply in_or_app; right; apply in_or_app; auto).
    match type of H with (match ?X with _ => _ end = _) => destruct X as [[w1 c1]|] eqn:EH; [|discriminate] end.
    assert (M1 : may nr js c1).
    { destruct (exec A fuel env [] b w) as [[w2 c2]|] eqn:EB; [|discriminate].
      apply IHb in EB.
      assert (M : may nr js c2) by (apply (may_sub (no_return b) _ (jumps [] b)); [intros N; apply HNs in N; apply N|exact Jb|exact EB]).
      destruct c2 as [v2|t v2|t v2|v2|v2]; try (injection EH as <- <-; exact M).
      destruct hc; [|injection EH as <- <-; exact M].
      assert (G : forall env w, exec A fuel env [] c w = Some (w1, c1) -> may nr js c1).
      { intros e0 w0 E. apply IHc in E. eapply may_sub; [|apply Jc; reflexivity|exact E].
        intros N. apply HNs in N. apply N. reflexivity. }
      destruct p as [[d bd]|]; [|eapply G; exact EH].
      destruct (w_scope A d env w2) as [w3 y].
      destruct (w_bind A bd v2 (y :: env) w3) as [[w4 [u|u]] o]; cbn [ok] in EH; [eapply G; exact EH|].
      injection EH as <- <-. auto. }
    destruct hf; [|injection H as <- <-; apply may_update; exact M1].
    destruct (exec A fuel env [] f w1) as [[w2 c2]|] eqn:EF; [|discriminate].
    apply IHf in EF.
    assert (M2 : may nr js c2).
    { eapply may_sub; [|apply Jf; reflexivity|exact EF]. intros N. apply HNs in N. apply N. reflexivity. }
    destruct c2; injection H as <- <-; try (apply may_update; assumption);
      first [exact (may_update _ _ _ _ M2)|exact M2].
  - intros env i v w w' cm [= <- <-]. auto.
  - intros t s IHs r IHr env i v w w' cm H. cbn [every_case jumps_cases].
    assert (SR : forall cm, may (every_case (fun s => match s with Return _ => false | _ => true end) r) (jumps_cases r) cm ->
       may (every (fun s => match s with Return _ => false | _ => true end) s && every_case (fun s => match s with Return _ => false | _ => true end) r)
           (jumps [] s ++ jumps_cases r) cm).
    { intros c0 M. eapply may_sub; [| |exact M]; [intros N; apply andb_prop in N; apply N|].
      intros x Hx. apply in_or_app; auto. }
    destruct i as [|i]; [rewrite exec_cases_here in H|rewrite exec_cases_skip in H; apply SR; eapply IHr; exact H].
    destruct (exec A fuel env [] s w) as [[w1 c1]|] eqn:E; [|discriminate].
    apply IHs in E.
    assert (M1 : may (every (fun s => match s with Return _ => false | _ => true end) s && every_case (fun s => match s with Return _ => false | _ => true end) r)
           (jumps [] s ++ jumps_cases r) c1).
    { eapply may_sub; [| |exact E]; [intros N; apply andb_prop in N; apply N|]. intros x Hx. apply in_or_app; auto. }
    destruct c1; try (injection H as <- <-; first [exact M1|exact (may_update _ _ _ _ M1)]).
    apply SR. eapply IHr; exact H.
Qed.

Lemma no_return_ret s env ls w w' cm :
  exec A fuel env ls s w = Some (w', cm) -> no_return s = true -> not_ret cm.
Proof. intros H N. apply exec_may_both in H. apply H. exact N. Qed.

Lemma no_escape s env w w' cm :
  exec A fuel env [] s w = Some (w', cm) -> escapes s = false ->
  match cm with Brk _ _ _ | Cont _ _ _ => False | _ => True end.
Proof.
  intros H N. apply exec_may_both in H. destruct H as [_ H]. unfold escapes in N.
  destruct (jumps [] s); [|discriminate]. destruct cm; cbn in *; auto.
Qed.

End Compl.
