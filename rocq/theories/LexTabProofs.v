(** * Proofs about the tables *)
Require Import String ZArith List Bool Lia Arith.
From Verif Require Import LexTabModel LexTabSpec.
Import ListNotations.
Local Open Scope list_scope.
Local Open Scope nat_scope.

Section table.

Variable A : Type.
Implicit Types tab : list (entry A).

(** ** Updates *)
Lemma update_length tab i f : length (update tab i f) = length tab.
Proof. revert i. induction tab as [|e r IH]; intros [|i]; cbn; try reflexivity. rewrite IH. reflexivity. Qed.

Lemma update_same tab : forall i f e, nth_error tab i = Some e -> nth_error (update tab i f) i = Some (f e).
Proof.
  induction tab as [|x r IH]; intros [|i] f e H; try discriminate.
  - injection H as ->. reflexivity.
  - exact (IH i f e H).
Qed.

Lemma update_other tab : forall i j f, i <> j -> nth_error (update tab i f) j = nth_error tab j.
Proof.
  induction tab as [|x r IH]; intros [|i] [|j] f H; try reflexivity; [contradiction|].
  apply IH. congruence.
Qed.

(** ** Well formed tables: chains go down *)
Definition wf tab : Prop := forall i e, nth_error tab i = Some e ->
  (forall j, next e = Some j -> j < i) /\ (forall j, child e = Some j -> j < length tab).

Definition below (n : nat) (id : option nat) : Prop := match id with Some i => i < n | None => True end.

Lemma find_total tab c : wf tab -> forall f id, below f id -> below (length tab) id ->
  exists x, find tab f id c = Some x /\ below (length tab) x.
Proof.
  intro W. induction f as [|f IH]; intros [i|] B L; cbn [find].
  - cbn in B. lia.
  - exists None. split; [reflexivity|exact I].
  - cbn in B, L. destruct (nth_error tab i) as [e|] eqn:E; [|apply nth_error_None in E; lia].
    destruct (Z.eqb (chr e) c).
    + exists (Some i). split; [reflexivity|exact L].
    + destruct (W _ _ E) as [N _]. apply IH.
      * destruct (next e) as [j|]; [|exact I]. specialize (N j eq_refl). cbn. lia.
      * destruct (next e) as [j|]; [|exact I]. specialize (N j eq_refl). cbn. lia.
  - exists None. split; [reflexivity|exact I].
Qed.

(** The search depends only on the characters and chains below. *)
Lemma find_agree tab tab' c n : wf tab -> n <= length tab ->
  (forall j e, j < n -> nth_error tab j = Some e ->
     exists e', nth_error tab' j = Some e' /\ chr e' = chr e /\ next e' = next e) ->
  forall f f' id, below f id -> below f' id -> below n id -> find tab' f' id c = find tab f id c.
Proof.
  intros W NL AG. induction f as [|f IH]; intros f' [i|] B B' L; cbn in B, L.
  - lia.
  - destruct f'; reflexivity.
  - destruct f' as [|f']; cbn in B'; [lia|]. cbn [find].
    destruct (nth_error tab i) as [e|] eqn:E; [|apply nth_error_None in E; lia].
    destruct (AG _ _ L E) as (e' & -> & -> & ->). destruct (Z.eqb (chr e) c); [reflexivity|].
    destruct (W _ _ E) as [N _].
    apply IH; (destruct (next e) as [j|]; [specialize (N j eq_refl); cbn; lia|exact I]).
  - destruct f'; reflexivity.
Qed.

(** ** Walking *)
Definition childf tab (i : nat) (c : Z) : option nat :=
  match nth_error tab i with
  | None => None
  | Some e => match find tab (length tab) (child e) c with Some x => x | None => None end
  end.

Fixpoint walk tab (i : nat) (w : list Z) : option nat :=
  match w with
  | [] => Some i
  | c :: w' => match childf tab i c with Some j => walk tab j w' | None => None end
  end.

Definition res tab (i : nat) : option A :=
  match nth_error tab i with Some e => result e | None => None end.

Definition token_of tab (w : list Z) : option A :=
  match walk tab 0 w with Some i => res tab i | None => None end.

Lemma childf_below tab i c j : wf tab -> childf tab i c = Some j -> j < length tab.
Proof.
  unfold childf. intros W H. destruct (nth_error tab i) as [e|] eqn:E; [|discriminate].
  destruct (W _ _ E) as [_ C].
  assert (B : below (length tab) (child e)).
  { destruct (child e) as [k|]; [exact (C k eq_refl)|exact I]. }
  destruct (find_total tab c W (length tab) (child e) B B) as (x & F & X). rewrite F in H. subst x. exact X.
Qed.

Lemma childf_find tab i e c : wf tab -> nth_error tab i = Some e ->
  find tab (length tab) (child e) c = Some (childf tab i c).
Proof.
  intros W E. destruct (W _ _ E) as [_ C].
  assert (B : below (length tab) (child e)).
  { destruct (child e) as [k|]; [exact (C k eq_refl)|exact I]. }
  destruct (find_total tab c W (length tab) (child e) B B) as (x & F & X).
  unfold childf. rewrite E, F. reflexivity.
Qed.

Lemma walk_below tab : wf tab -> forall w i j, i < length tab -> walk tab i w = Some j -> j < length tab.
Proof.
  intro W. induction w as [|c w IH]; intros i j L H; cbn [walk] in H.
  - injection H as <-. exact L.
  - destruct (childf tab i c) as [k|] eqn:K; [|discriminate].
    apply (IH k); [exact (childf_below _ _ _ _ W K)|exact H].
Qed.

Lemma walk_app tab w : forall i u, walk tab i (w ++ u) = match walk tab i w with Some j => walk tab j u | None => None end.
Proof.
  induction w as [|c w IH]; intros i u; cbn [walk app]; [reflexivity|].
  destruct (childf tab i c); [apply IH|reflexivity].
Qed.

Definition inj tab : Prop := forall v w i, walk tab 0 v = Some i -> walk tab 0 w = Some i -> v = w.
Definition inv tab : Prop := wf tab /\ 0 < length tab /\ inj tab.

(** ** A new entry *)
Section add.
Variables (tab : list (entry A)) (parent : nat) (p : entry A) (c : Z).
Hypothesis W : wf tab.
Hypothesis P : nth_error tab parent = Some p.
Hypothesis NC : childf tab parent c = None.

Definition added : list (entry A) :=
  update (tab ++ [Entry c (child p) None None]) parent
    (fun e => Entry (chr e) (next e) (Some (length tab)) (result e)).

Lemma parent_below : parent < length tab.
Proof using P. apply nth_error_Some. rewrite P. discriminate. Qed.

Lemma added_length : length added = S (length tab).
Proof using. unfold added. rewrite update_length, app_length. cbn. lia. Qed.

Lemma added_parent : nth_error added parent = Some (Entry (chr p) (next p) (Some (length tab)) (result p)).
Proof using P.
  unfold added.
  assert (E : nth_error (tab ++ [Entry c (child p) None None]) parent = Some p).
  { rewrite nth_error_app1 by exact parent_below. exact P. }
  apply (update_same _ _ (fun e => Entry (chr e) (next e) (Some (length tab)) (result e)) _ E).
Qed.

Lemma added_new : nth_error added (length tab) = Some (Entry c (child p) None None).
Proof using P.
  unfold added. rewrite update_other by (pose proof parent_below; lia).
  rewrite nth_error_app2 by lia. rewrite Nat.sub_diag. reflexivity.
Qed.

Lemma added_old j : j < length tab -> j <> parent -> nth_error added j = nth_error tab j.
Proof using. intros L N. unfold added. rewrite update_other by lia. apply nth_error_app1. exact L. Qed.

Lemma added_cases j e : nth_error added j = Some e ->
  (j = length tab /\ e = Entry c (child p) None None) \/
  (j = parent /\ e = Entry (chr p) (next p) (Some (length tab)) (result p)) \/
  (j < length tab /\ j <> parent /\ nth_error tab j = Some e).
Proof using P.
  intro H. assert (L : j < S (length tab)).
  { rewrite <- added_length. apply nth_error_Some. rewrite H. discriminate. }
  destruct (Nat.eq_dec j (length tab)) as [->|N].
  - rewrite added_new in H. injection H as <-. left. tauto.
  - destruct (Nat.eq_dec j parent) as [->|N2].
    + rewrite added_parent in H. injection H as <-. right. left. tauto.
    + right. right. assert (L' : j < length tab) by lia. rewrite (added_old _ L' N2) in H. tauto.
Qed.

Lemma wf_child_p : below (length tab) (child p).
Proof using P W. destruct (W _ _ P) as [_ C]. destruct (child p) as [k|]; [exact (C k eq_refl)|exact I]. Qed.

Lemma added_wf : wf added.
Proof using P W.
  intros j e H. rewrite added_length. destruct (added_cases _ _ H) as [[-> ->]|[[-> ->]|(L & N & E)]]; cbn [next child].
  - split; [|discriminate]. intros k K. pose proof wf_child_p as B. rewrite K in B. exact B.
  - split; [exact (proj1 (W _ _ P))|]. intros k K. injection K as <-. lia.
  - destruct (W _ _ E) as [X Y]. split; [exact X|]. intros k K. specialize (Y k K). lia.
Qed.

Lemma added_agree c' : forall f f' id, below f id -> below f' id -> below (length tab) id ->
  find added f' id c' = find tab f id c'.
Proof using P W.
  apply find_agree; [exact W|lia|]. intros j e L E. destruct (Nat.eq_dec j parent) as [->|N].
  - exists (Entry (chr p) (next p) (Some (length tab)) (result p)). split; [exact added_parent|].
    rewrite P in E. injection E as ->. split; reflexivity.
  - exists e. rewrite (added_old _ L N). split; [exact E|split; reflexivity].
Qed.

Lemma added_childf i c' : i <= length tab ->
  childf added i c' =
  if (i =? parent) && Z.eqb c' c then Some (length tab)
  else if i =? length tab then None else childf tab i c'.
Proof using P W.
  intro L. unfold childf. pose proof parent_below as PB. destruct (Nat.eqb_spec i parent) as [->|N].
  - rewrite added_parent, P. cbn [child andb]. rewrite added_length. cbn [find]. rewrite added_new. cbn [chr next].
    rewrite (Z.eqb_sym c' c). destruct (Z.eqb c c'); [reflexivity|].
    destruct (Nat.eqb_spec parent (length tab)); [lia|].
    pose proof wf_child_p. rewrite (added_agree c' (length tab) (length tab)) by assumption. reflexivity.
  - cbn [andb]. destruct (Nat.eqb_spec i (length tab)) as [->|N2].
    + rewrite added_new. cbn [child]. rewrite added_length. reflexivity.
    + rewrite added_old by lia. destruct (nth_error tab i) as [e|] eqn:E; [|reflexivity].
      assert (B : below (length tab) (child e)).
      { destruct (W _ _ E) as [_ C]. destruct (child e) as [k|]; [exact (C k eq_refl)|exact I]. }
      rewrite (added_agree c' (length tab) (length added)); [reflexivity|exact B| |exact B].
      rewrite added_length. destruct (child e); [cbn in *; lia|exact I].
Qed.

Lemma added_walk_old : forall w i j, i < length tab -> walk tab i w = Some j -> walk added i w = Some j.
Proof using P W NC.
  induction w as [|d w IH]; intros i j L H; cbn [walk] in *; [exact H|].
  destruct (childf tab i d) as [k|] eqn:K; [|discriminate].
  rewrite added_childf by lia. destruct (Nat.eqb_spec i parent) as [->|N].
  - destruct (Z.eqb_spec d c) as [->|ND]; [congruence|]. cbn [andb].
    destruct (Nat.eqb_spec parent (length tab)); [lia|]. rewrite K.
    apply IH; [exact (childf_below _ _ _ _ W K)|exact H].
  - cbn [andb]. destruct (Nat.eqb_spec i (length tab)); [lia|]. rewrite K.
    apply IH; [exact (childf_below _ _ _ _ W K)|exact H].
Qed.

Lemma added_walk : forall w i j, i < length tab -> walk added i w = Some j ->
  (j < length tab /\ walk tab i w = Some j) \/
  (j = length tab /\ exists v, w = v ++ [c] /\ walk tab i v = Some parent).
Proof using P W.
  induction w as [|d w IH]; intros i j L H; cbn [walk] in H.
  - injection H as <-. left. split; [exact L|reflexivity].
  - rewrite added_childf in H by lia. destruct ((i =? parent) && Z.eqb d c) eqn:T.
    + apply andb_true_iff in T. destruct T as [T1 T2]. apply Nat.eqb_eq in T1. apply Z.eqb_eq in T2. subst i d.
      right. destruct w as [|d w].
      * cbn [walk] in H. injection H as <-. split; [reflexivity|]. exists []. split; reflexivity.
      * cbn [walk] in H. rewrite added_childf in H by lia. rewrite Nat.eqb_refl in H.
        destruct (Nat.eqb_spec (length tab) parent); [lia|]. discriminate.
    + destruct (Nat.eqb_spec i (length tab)); [lia|].
      destruct (childf tab i d) as [k|] eqn:K; [|discriminate].
      destruct (IH k j (childf_below _ _ _ _ W K) H) as [[L' E]|(-> & v & -> & E)].
      * left. split; [exact L'|]. cbn [walk]. rewrite K. exact E.
      * right. split; [reflexivity|]. exists (d :: v). split; [reflexivity|]. cbn [walk]. rewrite K. exact E.
Qed.

Lemma added_res_old i : i < length tab -> res added i = res tab i.
Proof using P.
  intro L. unfold res. destruct (Nat.eq_dec i parent) as [->|N].
  - rewrite added_parent, P. reflexivity.
  - rewrite added_old by assumption. reflexivity.
Qed.

Lemma added_res_new : res added (length tab) = None.
Proof using P. unfold res. rewrite added_new. reflexivity. Qed.

Lemma added_inv : inv tab -> inv added.
Proof using P W.
  intros (_ & L & IJ). split; [exact added_wf|]. split; [rewrite added_length; lia|].
  intros v w i HV HW.
  destruct (added_walk _ _ _ L HV) as [[L1 V]|(-> & v' & -> & V)];
    destruct (added_walk _ _ _ L HW) as [[L2 V2]|(E2 & w' & -> & V2)]; try lia.
  - exact (IJ _ _ _ V V2).
  - rewrite (IJ _ _ _ V V2). reflexivity.
Qed.

Lemma added_token w : 0 < length tab -> token_of added w = token_of tab w.
Proof using P W NC.
  intro L. unfold token_of. destruct (walk tab 0 w) as [i|] eqn:E.
  - rewrite (added_walk_old _ _ _ L E). apply added_res_old. exact (walk_below _ W _ _ _ L E).
  - destruct (walk added 0 w) as [i|] eqn:E2; [|reflexivity].
    destruct (added_walk _ _ _ L E2) as [[_ X]|(-> & _)]; [congruence|exact added_res_new].
Qed.

End add.

(** ** A new result *)
Section mark.
Variables (tab : list (entry A)) (i0 : nat) (e0 : entry A) (k : A).
Hypothesis E0 : nth_error tab i0 = Some e0.

Definition marked : list (entry A) := update tab i0 (fun e => Entry (chr e) (next e) (child e) (Some k)).

Lemma marked_cases j e : nth_error marked j = Some e ->
  exists e', nth_error tab j = Some e' /\ chr e = chr e' /\ next e = next e' /\ child e = child e' /\
    result e = if j =? i0 then Some k else result e'.
Proof using E0.
  unfold marked. intro H. destruct (Nat.eqb_spec j i0) as [->|N].
  - rewrite (update_same _ _ _ _ E0) in H. injection H as <-. exists e0. split; [exact E0|]. repeat split.
  - rewrite update_other in H by congruence. exists e. split; [exact H|]. repeat split.
Qed.

Lemma marked_length : length marked = length tab.
Proof using. apply update_length. Qed.

Lemma marked_back j e' : nth_error tab j = Some e' ->
  exists e, nth_error marked j = Some e /\ chr e = chr e' /\ next e = next e' /\ child e = child e'.
Proof using E0.
  intro H. destruct (nth_error marked j) as [e|] eqn:M.
  - destruct (marked_cases _ _ M) as (e2 & E2 & A1 & A2 & A3 & _). rewrite H in E2. injection E2 as <-.
    exists e. split; [reflexivity|]. tauto.
  - apply nth_error_None in M. rewrite marked_length in M.
    assert (j < length tab) by (apply nth_error_Some; rewrite H; discriminate). lia.
Qed.

Lemma marked_wf : wf tab -> wf marked.
Proof using E0.
  intros W j e H. destruct (marked_cases _ _ H) as (e' & E & _ & N & C & _). rewrite marked_length.
  destruct (W _ _ E) as [X Y]. rewrite N, C. split; assumption.
Qed.

Lemma marked_childf j c : wf tab -> childf marked j c = childf tab j c.
Proof using E0.
  intro W. unfold childf. destruct (nth_error tab j) as [e'|] eqn:E.
  - destruct (marked_back _ _ E) as (e & -> & _ & _ & ->).
    assert (B : below (length tab) (child e')).
    { destruct (W _ _ E) as [_ C]. destruct (child e') as [x|]; [exact (C x eq_refl)|exact I]. }
    rewrite marked_length. rewrite (find_agree tab marked c (length tab) W (le_n _)) with (f := length tab);
      [reflexivity| |exact B|exact B|exact B].
    intros x e1 _ X. destruct (marked_back _ _ X) as (e2 & -> & A1 & A2 & _). exists e2. tauto.
  - destruct (nth_error marked j) as [e|] eqn:M; [|reflexivity].
    destruct (marked_cases _ _ M) as (e' & X & _). congruence.
Qed.

Lemma marked_walk w : wf tab -> forall j, walk marked j w = walk tab j w.
Proof using E0.
  intro W. induction w as [|c w IH]; intro j; cbn [walk]; [reflexivity|].
  rewrite (marked_childf _ _ W). destruct (childf tab j c); [apply IH|reflexivity].
Qed.

Lemma marked_inv : inv tab -> inv marked.
Proof using E0.
  intros (W & L & IJ). split; [exact (marked_wf W)|]. split; [rewrite marked_length; exact L|].
  intros v w i. rewrite !(marked_walk _ W). apply IJ.
Qed.

Lemma marked_res j : res marked j = if j =? i0 then Some k else res tab j.
Proof using E0.
  unfold res. destruct (Nat.eqb_spec j i0) as [->|N].
  - unfold marked. rewrite (update_same _ _ _ _ E0). reflexivity.
  - unfold marked. rewrite update_other by congruence. reflexivity.
Qed.

End mark.

(** ** Inserting a word *)
Definition weq : forall u v : list Z, {u = v} + {u <> v} := list_eq_dec Z.eq_dec.

Lemma insert_ok k : forall w tab parent u, inv tab -> walk tab 0 u = Some parent ->
  exists tab', insert tab parent w k = Some tab' /\ inv tab' /\
    (forall v, token_of tab' v = if weq v (u ++ w) then Some k else token_of tab v) /\
    (forall v, walk tab' 0 v <> None -> walk tab 0 v <> None \/ exists x, u ++ w = v ++ x).
Proof.
  induction w as [|c w IH]; intros tab parent u IV WU; pose proof IV as (W & L & IJ);
    pose proof (walk_below _ W _ _ _ L WU) as PB;
    (destruct (nth_error tab parent) as [p|] eqn:P; [|apply nth_error_None in P; lia]).
  - cbn [insert]. rewrite P. eexists. split; [reflexivity|].
    split; [exact (marked_inv tab parent p k P IV)|]. split.
    + intro v. unfold token_of. fold (marked tab parent k). rewrite (marked_walk tab parent p k P v W 0).
      rewrite app_nil_r. destruct (walk tab 0 v) as [i|] eqn:V.
      * rewrite (marked_res tab parent p k P). destruct (Nat.eqb_spec i parent) as [->|N].
        -- rewrite (IJ _ _ _ V WU). destruct (weq u u); [reflexivity|contradiction].
        -- destruct (weq v u) as [->|]; [congruence|reflexivity].
      * destruct (weq v u) as [->|]; [congruence|reflexivity].
    + intros v H. fold (marked tab parent k) in H. rewrite (marked_walk tab parent p k P v W 0) in H. left. exact H.
  - cbn [insert]. rewrite P, (childf_find _ _ _ c W P). destruct (childf tab parent c) as [i|] eqn:C.
    + assert (WU' : walk tab 0 (u ++ [c]) = Some i).
      { rewrite walk_app, WU. cbn [walk]. rewrite C. reflexivity. }
      destruct (IH tab i (u ++ [c]) IV WU') as (tab' & I1 & I2 & I3 & I4).
      exists tab'. split; [exact I1|]. split; [exact I2|]. rewrite <- app_assoc in I3, I4. split; [exact I3|exact I4].
    + fold (added tab parent p c).
      assert (WU' : walk (added tab parent p c) 0 (u ++ [c]) = Some (length tab)).
      { rewrite walk_app. rewrite (added_walk_old tab parent p c W P C _ _ _ L WU). cbn [walk].
        rewrite (added_childf tab parent p c W P) by lia. rewrite Nat.eqb_refl, Z.eqb_refl. reflexivity. }
      destruct (IH (added tab parent p c) (length tab) (u ++ [c]) (added_inv tab parent p c W P IV) WU')
        as (tab' & I1 & I2 & I3 & I4).
      exists tab'. split; [exact I1|]. split; [exact I2|]. rewrite <- app_assoc in I3, I4. split.
      * intro v. rewrite I3. cbn [app]. destruct (weq v (u ++ c :: w)); [reflexivity|]. apply (added_token tab parent p c W P C v L).
      * intros v H. destruct (I4 v H) as [V|X]; [|right; exact X].
        destruct (walk (added tab parent p c) 0 v) as [j|] eqn:J; [|contradiction].
        destruct (added_walk tab parent p c W P _ _ _ L J) as [[_ E]|(_ & v' & -> & E)].
        -- left. rewrite E. discriminate.
        -- right. rewrite (IJ _ _ _ E WU). exists w. rewrite <- app_assoc. reflexivity.
Qed.

Lemma build_ok : forall l tab, inv tab ->
  exists tab', build tab l = Some tab' /\ inv tab' /\
    (forall v k, NoDup (map fst l) -> (forall w, In w (map fst l) -> token_of tab w = None) ->
       (token_of tab' v = Some k <-> token_of tab v = Some k \/ In (v, k) l)) /\
    (forall v, walk tab' 0 v <> None -> walk tab 0 v <> None \/ exists w x, In w (map fst l) /\ w = v ++ x).
Proof.
  induction l as [|[w k0] l IH]; intros tab IV.
  - exists tab. split; [reflexivity|]. split; [exact IV|]. split; [|intros v H; left; exact H].
    intros v k _ _. cbn [In]. tauto.
  - destruct (insert_ok k0 w tab 0 [] IV eq_refl) as (t1 & I1 & I2 & I3 & I4). cbn [app] in I3, I4.
    destruct (IH t1 I2) as (t2 & J1 & J2 & J3 & J4). exists t2. cbn [build]. rewrite I1.
    split; [exact J1|]. split; [exact J2|]. split.
    + intros v k ND FR. cbn [map fst] in ND, FR. inversion ND as [|? ? NI ND']; subst.
      rewrite J3; [|exact ND'|].
      * rewrite I3. cbn [In]. destruct (weq v w) as [->|N].
        -- rewrite (FR w (or_introl eq_refl)). split.
           ++ intros [H|H]; [|exfalso; apply NI; exact (in_map fst _ _ H)]. right. left. congruence.
           ++ intros [H|[H|H]]; [discriminate|left; congruence|right; exact H].
        -- split; [|intros [H|[H|H]]; [tauto|congruence|tauto]]. tauto.
      * intros x IX. rewrite I3. destruct (weq x w) as [->|]; [contradiction|]. apply FR. right. exact IX.
    + intros v H. destruct (J4 v H) as [V|(y & x & IY & E)].
      * destruct (I4 v V) as [V'|[x E]]; [left; exact V'|]. right. exists w, x. split; [left; reflexivity|exact E].
      * right. exists y, x. split; [right; exact IY|exact E].
Qed.

Lemma root_inv : inv (@root A).
Proof.
  split; [|split].
  - intros [|[|i]] e H; cbn in H; try discriminate. injection H as <-. split; discriminate.
  - cbn. lia.
  - assert (R : forall w i, walk (@root A) 0 w = Some i -> w = []).
    { intros [|c w] i H; [reflexivity|]. discriminate. }
    intros v w i HV HW. rewrite (R _ _ HV), (R _ _ HW). reflexivity.
Qed.

Lemma root_walk w : walk (@root A) 0 w <> None -> w = [].
Proof. destruct w as [|c w]; [reflexivity|]. cbn. intro H. contradiction. Qed.

Lemma root_token w : token_of (@root A) w = None.
Proof. destruct w as [|c w]; reflexivity. Qed.

(** ** Searching a word *)
Lemma lookup_ok tab : inv tab -> forall w i u, w <> [] -> walk tab 0 u = Some i ->
  lookup tab i w = Some (token_of tab (u ++ w)).
Proof.
  intros (W & L & _). induction w as [|c w IH]; intros i u NE WU; [contradiction|].
  pose proof (walk_below _ W _ _ _ L WU) as B. cbn [lookup].
  destruct (nth_error tab i) as [e|] eqn:E; [|apply nth_error_None in E; lia].
  rewrite (childf_find _ _ _ c W E). destruct (childf tab i c) as [j|] eqn:C.
  - assert (WU' : walk tab 0 (u ++ [c]) = Some j) by (rewrite walk_app, WU; cbn [walk]; rewrite C; reflexivity).
    destruct w as [|d w].
    + unfold token_of. rewrite WU'. unfold res.
      pose proof (childf_below _ _ _ _ W C). destruct (nth_error tab j) eqn:J; [reflexivity|apply nth_error_None in J; lia].
    + rewrite (IH j (u ++ [c]) ltac:(discriminate) WU'). rewrite <- app_assoc. reflexivity.
  - f_equal. unfold token_of. rewrite walk_app, WU. cbn [walk]. rewrite C. reflexivity.
Qed.

(** ** Punctuators *)

(** t is the longest token in front of u ++ s, or there is none *)
Definition best tab (s : list Z) (last : option A) (t rest : list Z) : Prop :=
  s = t ++ rest /\
  match last with
  | Some k => token_of tab t = Some k /\
      forall t' r', s = t' ++ r' -> token_of tab t' <> None -> length t' <= length t
  | None => t = [] /\ forall t' r', s = t' ++ r' -> token_of tab t' = None
  end.

Lemma app_prefix (t r u s : list Z) : t ++ r = u ++ s -> length t <= length u -> exists x, u = t ++ x.
Proof.
  revert u. induction t as [|a t IH]; intros u E L; [exists u; reflexivity|].
  destruct u as [|b u]; [cbn in L; lia|]. injection E as -> E. destruct (IH u E) as [x ->]; [cbn in L; lia|].
  exists x. reflexivity.
Qed.

(** While reading: u has been read, t is the longest token in it, buf the rest of u *)
Definition seen tab (u : list Z) (last : option A) (buf : list Z) : Prop :=
  exists t, u = t ++ buf /\
    match last with
    | Some k => token_of tab t = Some k /\
        forall t' r', u = t' ++ r' -> token_of tab t' <> None -> length t' <= length t
    | None => t = [] /\ forall t' r', u = t' ++ r' -> token_of tab t' = None
    end.

Lemma token_walk tab w : token_of tab w <> None -> walk tab 0 w <> None.
Proof. unfold token_of. destruct (walk tab 0 w); [discriminate|contradiction]. Qed.

Lemma punct_ok tab : inv tab -> (forall v, walk tab 0 v <> None -> length v <= 7) ->
  forall s u i last buf, walk tab 0 u = Some i ->
  (exists t, u = t ++ buf /\
    match last with
    | Some k => token_of tab t = Some k /\
        forall t' r', u = t' ++ r' -> r' <> [] -> token_of tab t' <> None -> length t' <= length t
    | None => t = [] /\ forall t' r', u = t' ++ r' -> r' <> [] -> token_of tab t' = None
    end) ->
  match punct tab i last buf s with
  | PToken k rest => exists t, best tab (u ++ s) (Some k) t rest
  | PError => best tab (u ++ s) None [] (u ++ s)
  | _ => False
  end.
Proof.
  intros (W & L & IJ) BD. induction s as [|c s IH]; intros u i last buf WU SN;
    pose proof (walk_below _ W _ _ _ L WU) as B;
    (destruct (nth_error tab i) as [e|] eqn:E; [|apply nth_error_None in E; lia]);
    cbn [punct]; rewrite E;
    (assert (RT : token_of tab u = result e) by (unfold token_of, res; rewrite WU, E; reflexivity)).
  - (* the end *)
    rewrite app_nil_r. destruct (result e) as [k|] eqn:R.
    + exists u. split; [rewrite app_nil_r; reflexivity|]. split; [exact RT|].
      intros t' r' -> _. rewrite app_length. lia.
    + destruct SN as (t & -> & SN). destruct last as [k|].
      * destruct SN as [T M]. exists t. rewrite app_nil_r. split; [reflexivity|]. split; [exact T|].
        intros t' r' X NT. destruct r' as [|x r'].
        -- rewrite app_nil_r in X. subst t'. congruence.
        -- exact (M _ _ X ltac:(discriminate) NT).
      * destruct SN as [-> M]. split; [reflexivity|]. split; [reflexivity|].
        intros t' r' X. destruct r' as [|x r'].
        -- rewrite app_nil_r in X. subst t'. exact RT.
        -- exact (M _ _ X ltac:(discriminate)).
  - set (tb := match result e with Some t => (Some t, []) | None => (last, buf) end).
    assert (SN' : seen tab u (fst tb) (snd tb)).
    { unfold tb, seen. destruct (result e) as [k|] eqn:R; cbn [fst snd].
      - exists u. split; [rewrite app_nil_r; reflexivity|]. split; [exact RT|].
        intros t' r' -> _. rewrite app_length. lia.
      - destruct SN as (t & EU & SN). exists t. split; [exact EU|]. destruct last as [k|].
        + destruct SN as [T M]. split; [exact T|]. intros t' r' X NT. destruct r' as [|x r'].
          * rewrite app_nil_r in X. subst t'. congruence.
          * exact (M _ _ X ltac:(discriminate) NT).
        + destruct SN as [T M]. split; [exact T|]. intros t' r' X. destruct r' as [|x r'].
          * rewrite app_nil_r in X. subst t'. exact RT.
          * exact (M _ _ X ltac:(discriminate)). }
    destruct tb as [tt1 buf1]. cbn [fst snd] in SN'.
    assert (BL : length buf1 <= 7).
    { destruct SN' as (t & -> & _). assert (length (t ++ buf1) <= 7) by (apply BD; rewrite WU; discriminate).
      rewrite app_length in H. lia. }
    destruct (Nat.leb_spec 8 (length buf1)); [lia|].
    rewrite (childf_find _ _ _ c W E). destruct (childf tab i c) as [j|] eqn:C.
    + assert (WU' : walk tab 0 (u ++ [c]) = Some j) by (rewrite walk_app, WU; cbn [walk]; rewrite C; reflexivity).
      specialize (IH (u ++ [c]) j tt1 (buf1 ++ [c]) WU'). rewrite <- app_assoc in IH. apply IH.
      destruct SN' as (t & EU & SN'). exists t. split; [rewrite EU, <- app_assoc; reflexivity|].
      assert (SP : forall t' r', u ++ [c] = t' ++ r' -> r' <> [] -> exists r2, u = t' ++ r2).
      { intros t' r' X NR. destruct (exists_last NR) as (r2 & x & ->). rewrite app_assoc in X.
        apply app_inj_tail in X. destruct X as [X _]. exists r2. exact X. }
      destruct tt1 as [k|].
      * destruct SN' as [T M]. split; [exact T|]. intros t' r' X NR NT. destruct (SP _ _ X NR) as [r2 X2].
        exact (M _ _ X2 NT).
      * destruct SN' as [T M]. split; [exact T|]. intros t' r' X NR. destruct (SP _ _ X NR) as [r2 X2].
        exact (M _ _ X2).
    + (* no way on: every token in front of the input is inside u *)
      assert (IN : forall t' r', u ++ c :: s = t' ++ r' -> token_of tab t' <> None -> exists r2, u = t' ++ r2).
      { intros t' r' X NT. destruct (le_gt_dec (length t') (length u)) as [LE|GT].
        - exact (app_prefix t' r' u (c :: s) (eq_sym X) LE).
        - exfalso. assert (LE : length (u ++ [c]) <= length t') by (rewrite app_length; cbn; lia).
          replace (u ++ c :: s) with ((u ++ [c]) ++ s) in X by (rewrite <- app_assoc; reflexivity).
          destruct (app_prefix (u ++ [c]) s t' r' X LE) as [x ->].
          apply (token_walk _ _ NT). rewrite !walk_app, WU. cbn [walk]. rewrite C. reflexivity. }
      destruct SN' as (t & EU & SN'). destruct tt1 as [k|].
      * destruct SN' as [T M]. exists t. split; [rewrite EU, <- !app_assoc; reflexivity|]. split; [exact T|].
        intros t' r' X NT. destruct (IN _ _ X NT) as [r2 X2]. exact (M _ _ X2 NT).
      * destruct SN' as [T M]. split; [reflexivity|]. split; [reflexivity|].
        intros t' r' X. destruct (token_of tab t') eqn:NT; [|reflexivity].
        destruct (IN _ _ X) as [r2 X2]; [congruence|]. rewrite (M _ _ X2) in NT. discriminate.
Qed.

End table.
