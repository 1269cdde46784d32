From Coq Require Import List Bool Arith ZArith Lia Sorted.
Import ListNotations.
From Verif Require StoreModel.
From Verif Require Import RbtModel RbtSpec RbtProofs RbtFixProofs RbtRemoveProofs RbtTreeProofs.

(** ** Searching *)
Lemma sorted_split : forall (l1 l2 : list Z) a, StronglySorted Z.lt (l1 ++ a :: l2) -> StronglySorted Z.lt l1 /\ StronglySorted Z.lt l2 /\ (forall x, In x l1 -> (x < a)%Z) /\ (forall x, In x l2 -> (a < x)%Z).
Proof.
  induction l1 as [|b l1 IH]; intros l2 a S; cbn [app] in S.
  - inversion S; subst. split; [constructor|]. split; [assumption|]. split; [intros x []|]. intros x X. rewrite Forall_forall in H2. auto.
  - inversion S; subst. destruct (IH l2 a H1) as (A & B & C & D). rewrite Forall_forall in H2. split; [constructor; [exact A|]; apply Forall_forall; intros x X; apply H2; apply in_or_app; auto|]. split; [exact B|]. split; [|exact D].
    intros x [-> | X]; [apply H2; apply in_or_app; right; left; reflexivity | auto].
Qed.
Lemma ordered_T : forall idx c l a r, ordered idx (T c l a r) -> ordered idx l /\ ordered idx r /\ (forall x, In x (elems l) -> (idx x < idx a)%Z) /\ (forall x, In x (elems r) -> (idx a < idx x)%Z).
Proof.
  intros idx c l a r O. unfold ordered in *. cbn [elems] in O. rewrite map_app in O. cbn [map] in O. destruct (sorted_split _ _ _ O) as (A & B & C & D). repeat split; auto; intros x X; [apply C | apply D]; apply in_map; exact X.
Qed.
Lemma search_spec : forall idx i t fuel h p, rep (mem h) p t -> occ 0 t = 0 -> ordered idx t -> height t < fuel ->
  exists a, search fuel h idx i (ra t) = Some a /\ ((a = 0 /\ ~ In i (map idx (elems t))) \/ (In a (elems t) /\ idx a = i)).
Proof.
  intros idx i. induction t as [|c l IHl a r IHr]; intros fuel h p P Z O F; (destruct fuel as [|f]; [cbn in F; lia|]); cbn [ra search].
  - exists 0. split; [reflexivity|]. left. split; [reflexivity | intros []].
  - cbn [rep occ height] in *. destruct P as (P1 & P2 & P3). destruct (ordered_T _ _ _ _ _ O) as (OL & OR & CL & CR). destruct (Nat.eqb_spec a 0) as [-> | A]; [rewrite one_refl in Z; lia|].
    destruct (Z.eqb_spec (idx a) i) as [Q | Q].
    + exists a. split; [reflexivity|]. right. split; [cbn [elems]; apply in_or_app; right; left; reflexivity | exact Q].
    + destruct (Z.ltb_spec i (idx a)) as [LT | GE].
      * rewrite (left_eq _ _ _ P1). cbn [bind lf]. destruct (IHl f h a P2 ltac:(lia) OL ltac:(lia)) as (b & E1 & D). exists b. split; [exact E1|]. destruct D as [[-> N] | [I1 I2]].
        -- left. split; [reflexivity|]. cbn [elems]. rewrite map_app, in_app_iff. cbn [map In]. intros [X | [X | X]]; [exact (N X) | exact (Q X)|]. apply in_map_iff in X. destruct X as (x & X1 & X2). specialize (CR x X2). lia.
        -- right. split; [cbn [elems]; apply in_or_app; left; exact I1 | exact I2].
      * rewrite (right_eq _ _ _ P1). cbn [bind rg]. destruct (IHr f h a P3 ltac:(lia) OR ltac:(lia)) as (b & E1 & D). exists b. split; [exact E1|]. destruct D as [[-> N] | [I1 I2]].
        -- left. split; [reflexivity|]. cbn [elems]. rewrite map_app, in_app_iff. cbn [map In]. intros [X | [X | X]]; [|exact (Q X) | exact (N X)]. apply in_map_iff in X. destruct X as (x & X1 & X2). specialize (CL x X2). lia.
        -- right. split; [cbn [elems]; apply in_or_app; right; right; exact I1 | exact I2].
Qed.
Lemma locate_search : forall idx i fuel h a b, search fuel h idx i a = Some b -> b <> 0 -> locate fuel h idx i a = Some b.
Proof.
  intros idx i. induction fuel as [|f IH]; intros h a b S N; [discriminate|]. cbn [search locate] in *. destruct (a =? 0); [congruence|]. destruct (idx a =? i)%Z; [exact S|]. destruct (i <? idx a)%Z.
  - destruct (left h a) as [l|]; cbn [bind] in *; [auto | discriminate].
  - destruct (right h a) as [l|]; cbn [bind] in *; [auto | discriminate].
Qed.

(** ** Insertion *)
Definition dside (k : ctx) : side := match k with [] => SRoot | FL _ _ _ :: _ => SLeft | FR _ _ _ :: _ => SRight end.
Lemma descend_spec : forall idx i t fuel h k, rep (mem h) (par k) t -> occ 0 t = 0 -> ordered idx t -> ~ In i (map idx (elems t)) -> height t < fuel ->
  exists k', descend fuel h idx i (ra t) (par k) (dside k) = Some (par (k' ++ k), dside (k' ++ k)) /\ t = plug k' E /\ (forall x, In x (pre k') -> (idx x < i)%Z) /\ (forall x, In x (post k') -> (i < idx x)%Z).
Proof.
  intros idx i. induction t as [|c l IHl a r IHr]; intros fuel h k P Z O N F; (destruct fuel as [|f]; [cbn in F; lia|]); cbn [ra descend].
  - exists []. cbn [app plug pre post]. split; [reflexivity|]. split; [reflexivity|]. split; intros x [].
  - cbn [rep occ height] in *. destruct P as (P1 & P2 & P3). destruct (ordered_T _ _ _ _ _ O) as (OL & OR & CL & CR). destruct (Nat.eqb_spec a 0) as [-> | A]; [rewrite one_refl in Z; lia|].
    cbn [elems] in N. rewrite map_app, in_app_iff in N. cbn [map In] in N.
    destruct (Z.ltb_spec i (idx a)) as [LT | GE].
    + rewrite (left_eq _ _ _ P1). cbn [bind lf]. destruct (IHl f h (FL c a r :: k) P2 ltac:(lia) OL ltac:(tauto) ltac:(lia)) as (k' & E1 & -> & A1 & A2). exists (k' ++ [FL c a r]). rewrite <- !app_assoc. cbn [app]. split; [exact E1|]. split; [rewrite plug_app; reflexivity|].
      rewrite pre_app, post_app. cbn [pre post app]. rewrite app_nil_r. split; [exact A1|]. intros x X. apply in_app_or in X. destruct X as [X | [<- | X]]; auto. specialize (CR x X). lia.
    + assert (GT : (idx a < i)%Z) by (assert (idx a <> i) by tauto; lia).
      rewrite (right_eq _ _ _ P1). cbn [bind rg]. destruct (IHr f h (FR c a l :: k) P3 ltac:(lia) OR ltac:(tauto) ltac:(lia)) as (k' & E1 & -> & A1 & A2). exists (k' ++ [FR c a l]). rewrite <- !app_assoc. cbn [app]. split; [exact E1|]. split; [rewrite plug_app; reflexivity|].
      rewrite pre_app, post_app. cbn [pre post app]. rewrite app_nil_r. split; [|exact A2]. intros x X. rewrite !in_app_iff in X. destruct X as [[X | [<- | []]] | X]; auto. specialize (CL x X). lia.
Qed.
Lemma link_spec : forall h k n, good h k E -> n <> 0 -> cocc n k = 0 -> exists h', link h n (par k) (dside k) = Some h' /\ good h' k (T false E n E) /\ forall y, y <> n -> cocc y k = 0 -> mem h' y = mem h y.
Proof.
  intros h k n [C P ND NZ] N O. cbn [ra occ rep] in *. unfold link. set (h1 := {| mem := upd (mem h) n (Some {| lf := 0; rg := 0; pa := par k; bl := false |}); root := root h |}).
  assert (M1 : mem h1 n = Some {| lf := 0; rg := 0; pa := par k; bl := false |}) by (apply upd_same).
  assert (MO : forall y, y <> n -> mem h1 y = mem h y) by (intros y Y; apply upd_other; exact Y).
  assert (C1 : rep_ctx (mem h1) (root h1) k 0). { cbn [root h1]. apply (rep_ctx_frame k (mem h)); [|exact C]. intros y Y. apply MO. intros ->. lia. }
  clearbody h1. assert (ND1 : forall x, occ x (T false E n E) + cocc x k <= 1).
  { intro x. cbn [occ]. specialize (ND x). destruct (Nat.eq_dec n x) as [-> | X]; [rewrite one_refl; lia | rewrite (one_ne n x X); lia]. }
  assert (NZ1 : occ 0 (T false E n E) + cocc 0 k = 0). { cbn [occ]. rewrite (one_ne n 0 N). lia. }
  destruct k as [|[c x t|c x t] k]; cbn [dside par] in *.
  - eexists. split; [reflexivity|]. split; [|intros y Y _; cbn [mem]; apply MO; exact Y]. constructor; cbn [rep_ctx ra rep mem root par]; auto.
  - cbn [rep_ctx] in C1. destruct C1 as (X1 & X2 & X3). destruct (set_left_spec h1 x n _ X1) as (h2 & E2 & W1 & W2 & W3). cbn [rg pa bl] in W2. cbn [cocc] in *.
    assert (XN : n <> x) by (intros ->; rewrite one_refl in O; lia).
    assert (KX : forall y, 0 < occ y t + cocc y k -> y <> x). { intros y Y ->. specialize (ND x). rewrite one_refl in ND. lia. }
    exists h2. split; [exact E2|]. split.
    + constructor; [| |exact ND1|exact NZ1].
      * cbn [rep_ctx ra]. split; [exact W2|]. rewrite W1. split; [apply (rep_frame (mem h1)); [|exact X2] | apply (rep_ctx_frame k (mem h1)); [|exact X3]]; intros y Y; apply W3; apply KX; lia.
      * cbn [rep ra par]. split; [rewrite W3 by exact XN; exact M1 | auto].
    + intros y Y1 Y2. rewrite W3; [apply MO; exact Y1|]. intros ->. rewrite one_refl in Y2. lia.
  - cbn [rep_ctx] in C1. destruct C1 as (X1 & X2 & X3). destruct (set_right_spec h1 x n _ X1) as (h2 & E2 & W1 & W2 & W3). cbn [lf pa bl] in W2. cbn [cocc] in *.
    assert (XN : n <> x) by (intros ->; rewrite one_refl in O; lia).
    assert (KX : forall y, 0 < occ y t + cocc y k -> y <> x). { intros y Y ->. specialize (ND x). rewrite one_refl in ND. lia. }
    exists h2. split; [exact E2|]. split.
    + constructor; [| |exact ND1|exact NZ1].
      * cbn [rep_ctx ra]. split; [exact W2|]. rewrite W1. split; [apply (rep_frame (mem h1)); [|exact X2] | apply (rep_ctx_frame k (mem h1)); [|exact X3]]; intros y Y; apply W3; apply KX; lia.
      * cbn [rep ra par]. split; [rewrite W3 by exact XN; exact M1 | auto].
    + intros y Y1 Y2. rewrite W3; [apply MO; exact Y1|]. intros ->. rewrite one_refl in Y2. lia.
Qed.
Theorem add_spec : forall fuel h idx t n, stores h t -> balanced t -> ordered idx t -> n <> 0 -> ~ In n (elems t) -> ~ In (idx n) (map idx (elems t)) -> S (height t) < fuel ->
  exists h' t' X Y, add fuel h idx n = Some h' /\ stores h' t' /\ balanced t' /\ elems t = X ++ Y /\ elems t' = X ++ n :: Y /\ (forall x, In x X -> (idx x < idx n)%Z) /\ (forall x, In x Y -> (idx n < idx x)%Z) /\
    forall y, y <> n -> ~ In y (elems t) -> mem h' y = mem h y.
Proof.
  intros fuel h idx t n S B O N NI NK F. unfold add. pose proof (stores_good _ _ S) as [C P ND NZ]. cbn [rep_ctx par cocc] in *.
  destruct (descend_spec idx (idx n) t fuel h [] P ltac:(lia) O NK ltac:(lia)) as (k & E1 & -> & A1 & A2). rewrite app_nil_r in E1. cbn [par dside] in E1. rewrite C, E1. cbn [bind].
  assert (CN : cocc n k = 0). { destruct (Nat.eq_dec (cocc n k) 0) as [Q | Q]; [exact Q|]. exfalso. apply NI. apply occ_in. rewrite occ_plug. lia. }
  destruct (link_spec h k n (good_plug _ _ _ S) N CN) as (h1 & E2 & G & M1). rewrite E2. cbn [bind]. unfold rbt_insert. pose proof (g_rep _ _ _ G) as R. cbn [rep ra] in R. destruct R as (R & _). rewrite (red_parent_eq _ _ _ R eq_refl). cbn [bind pa].
  destruct (wf_down _ _ B) as (m & b & W & CW & _). inversion W; subst. pose proof (height_plug k E) as HP. cbn [height] in HP.
  destruct (insert_loop_spec fuel k E n E h1 0 b ltac:(lia) G W W eq_refl eq_refl CW) as (h' & E3 & t' & S1 & S2 & S3 & S4). exists h', t', (pre k), (post k). split; [exact E3|]. split; [exact S1|]. split; [exact S3|].
  rewrite S2, !elems_ctx. cbn [elems app]. split; [reflexivity|]. split; [reflexivity|]. split; [exact A1|]. split; [exact A2|]. intros y Y1 Y2.
  assert (CY : cocc y k = 0). { destruct (Nat.eq_dec (cocc y k) 0) as [Q | Q]; [exact Q|]. exfalso. apply Y2. change (pre k ++ post k) with (pre k ++ elems E ++ post k). rewrite <- elems_ctx. apply occ_in. rewrite occ_plug. lia. }
  rewrite S4, M1 by (try assumption; cbn [occ]; rewrite (one_ne n y) by congruence; lia). reflexivity.
Qed.
Theorem delete_spec : forall fuel h idx t i, stores h t -> balanced t -> ordered idx t -> In i (map idx (elems t)) -> height t < fuel ->
  exists h' t' X n Y, delete fuel h idx i = Some h' /\ stores h' t' /\ balanced t' /\ elems t = X ++ n :: Y /\ idx n = i /\ elems t' = X ++ Y /\ mem h' n = None /\
    forall y, ~ In y (elems t) -> mem h' y = mem h y.
Proof.
  intros fuel h idx t i S B O HI F. unfold delete. pose proof (stores_good _ _ S) as [C P ND NZ]. cbn [rep_ctx par cocc] in *.
  destruct (search_spec idx i t fuel h 0 P ltac:(lia) O F) as (a & E1 & D). destruct D as [[_ D] | [D1 D2]]; [contradiction|].
  assert (A : a <> 0). { intros ->. destruct S as (_ & _ & _ & Z). exact (Z D1). }
  rewrite C, (locate_search _ _ _ _ _ _ E1 A). cbn [bind]. destruct (find_node t a D1) as (k & c & l & r & ->).
  destruct (rbt_remove_spec fuel k c l a r h F (good_plug _ _ _ S) B) as (h1 & E2 & t' & S1 & S2 & S3 & S4). rewrite E2. cbn [bind].
  assert (NA : ~ In a (elems t')). { rewrite S2. destruct S as (_ & _ & N & _). rewrite elems_ctx in N. cbn [elems] in N. rewrite <- app_assoc in N. cbn [app] in N. rewrite app_assoc in N. apply NoDup_remove_2 in N. rewrite <- app_assoc in N. exact N. }
  eexists. exists t', (pre k ++ elems l), a, (elems r ++ post k). split; [reflexivity|]. split.
  - destruct S1 as (U1 & U2 & U3 & U4). split; [exact U1|]. split; [|auto]. apply (rep_frame (mem h1)); [|exact U2]. intros y Y. cbn [mem free]. apply upd_other. intros ->. apply NA. apply occ_in. exact Y.
  - split; [exact S3|]. split; [rewrite elems_ctx; cbn [elems]; rewrite <- !app_assoc; reflexivity|]. split; [exact D2|]. split; [rewrite S2, <- !app_assoc; reflexivity|]. split; [apply upd_same|].
    intros y Y. cbn [mem free]. rewrite upd_other; [|intros ->; contradiction]. apply S4. rewrite <- occ_plug. destruct (Nat.eq_dec (occ y (plug k (T c l a r))) 0) as [Q | Q]; [exact Q|]. exfalso. apply Y. apply occ_in. lia.
Qed.

(** ** Histories *)
Definition tag (idx : nat -> Z) (a : nat) : Z * nat := (idx a, a).
Definition inv (s : heap * (nat -> Z)) (l : list (Z * nat)) : Prop :=
  exists t, stores (fst s) t /\ balanced t /\ ordered (snd s) t /\ map (tag (snd s)) (elems t) = l /\ forall y, mem (fst s) y <> None <-> In y (elems t).
Lemma keys_tag : forall idx l, keys (map (tag idx) l) = map idx l.
Proof. intros. unfold keys. rewrite map_map. reflexivity. Qed.
Lemma nodes_tag : forall idx l, nodes (map (tag idx) l) = l.
Proof. intros. unfold nodes. rewrite map_map. cbn. apply map_id. Qed.
Lemma put_mid : forall idx i n X Y, (forall x, In x X -> (idx x < i)%Z) -> (forall x, In x Y -> (i < idx x)%Z) -> put (map (tag idx) (X ++ Y)) i n = map (tag idx) X ++ (i, n) :: map (tag idx) Y.
Proof.
  intros idx i n. induction X as [|x X IH]; intros Y A B; cbn [app map].
  - destruct Y as [|y Y]; [reflexivity|]. cbn [map put]. unfold tag at 1. rewrite (proj2 (Z.ltb_lt _ _) (B y (or_introl eq_refl))). reflexivity.
  - cbn [put]. unfold tag at 1. assert (X1 : (idx x < i)%Z) by (apply A; left; reflexivity). destruct (Z.ltb_spec i (idx x)); [lia|]. rewrite IH; [reflexivity | intros y Y1; apply A; right; exact Y1 | exact B].
Qed.
Lemma drop_mid : forall idx n X Y, (forall x, In x X -> idx x <> idx n) -> (forall x, In x Y -> idx x <> idx n) -> drop (map (tag idx) (X ++ n :: Y)) (idx n) = map (tag idx) (X ++ Y).
Proof.
  intros idx n X Y A B. unfold drop. assert (K : forall L, (forall x, In x L -> idx x <> idx n) -> filter (fun e => negb (fst e =? idx n)%Z) (map (tag idx) L) = map (tag idx) L).
  { induction L as [|x L IH]; intro H; [reflexivity|]. cbn [map filter tag fst]. rewrite (proj2 (Z.eqb_neq _ _) (H x (or_introl eq_refl))). cbn [negb]. rewrite IH; [reflexivity|]. intros y Y1. apply H. right. exact Y1. }
  rewrite !map_app, filter_app. cbn [map filter]. unfold tag at 2. cbn [fst]. rewrite Z.eqb_refl. cbn [negb]. rewrite !K by assumption. reflexivity.
Qed.
Lemma sorted_app : forall l1 l2 : list Z, StronglySorted Z.lt l1 -> StronglySorted Z.lt l2 -> (forall x y, In x l1 -> In y l2 -> (x < y)%Z) -> StronglySorted Z.lt (l1 ++ l2).
Proof.
  induction l1 as [|a l1 IH]; intros l2 A B C; [exact B|]. inversion A; subst. cbn [app]. constructor; [apply IH; auto; intros; apply C; [right|]; assumption|]. apply Forall_forall. intros x X. apply in_app_or in X. rewrite Forall_forall in H2. destruct X; [auto | apply C; [left; reflexivity | assumption]].
Qed.
Lemma step_add : forall s l n i fuel, inv s l -> n <> 0 -> ~ In n (nodes l) -> ~ In i (keys l) -> 2 * Nat.log2 (S (length l)) + 2 <= fuel -> exists s', step fuel s (Add n i) = Some s' /\ inv s' (put l i n).
Proof.
  intros [h idx] l n i fuel (t & S & B & O & Q & M) N NN NK F. cbn [fst snd] in *. subst l. rewrite nodes_tag in NN. rewrite keys_tag in NK. rewrite map_length in F. pose proof (height_log t B) as HL.
  set (idx' := fun x => if x =? n then i else idx x).
  assert (I1 : forall x, In x (elems t) -> idx' x = idx x). { intros x X. unfold idx'. destruct (Nat.eqb_spec x n) as [-> | _]; [contradiction | reflexivity]. }
  assert (I2 : idx' n = i) by (unfold idx'; rewrite Nat.eqb_refl; reflexivity).
  assert (MI : map idx' (elems t) = map idx (elems t)) by (apply map_ext_in; exact I1).
  destruct (add_spec fuel h idx' t n S B) as (h' & t' & X & Y & E1 & S' & B' & Q1 & Q2 & A1 & A2 & A3); [unfold ordered; rewrite MI; exact O | exact N | exact NN | rewrite MI, I2; exact NK | lia|].
  exists (h', idx'). split; [cbn [step]; fold idx'; rewrite E1; reflexivity|]. exists t'. cbn [fst snd]. split; [exact S'|]. split; [exact B'|]. rewrite I2 in *.
  assert (OX : StronglySorted Z.lt (map idx' X) /\ StronglySorted Z.lt (map idx' Y)).
  { unfold ordered in O. rewrite <- MI, Q1, map_app in O. clear - O. induction (map idx' X) as [|a L IH]; cbn [app] in *; [split; [constructor | exact O]|]. inversion O; subst. destruct (IH H1) as (P1 & P2). split; [constructor; [exact P1|] | exact P2]. rewrite Forall_forall in *. intros x X1. apply H2. apply in_or_app. left. exact X1. }
  destruct OX as (OX & OY). split.
  - unfold ordered. rewrite Q2, map_app. cbn [map]. apply sorted_app; [exact OX | constructor; [exact OY|]; apply Forall_forall; intros x H; apply in_map_iff in H; destruct H as (y & <- & H); rewrite I2; apply A2; exact H|].
    intros x y H1 H2. apply in_map_iff in H1. destruct H1 as (x' & <- & H1). specialize (A1 x' H1). destruct H2 as [<- | H2]; [rewrite I2; exact A1|]. apply in_map_iff in H2. destruct H2 as (y' & <- & H2). specialize (A2 y' H2). lia.
  - split.
    + replace (map (tag idx) (elems t)) with (map (tag idx') (X ++ Y)) by (rewrite <- Q1; apply map_ext_in; intros x H; unfold tag; rewrite I1 by exact H; reflexivity).
      rewrite (put_mid idx' i n X Y A1 A2), Q2, map_app. cbn [map]. unfold tag at 2. rewrite I2. reflexivity.
    + intro y. rewrite Q2, in_app_iff. cbn [In]. destruct (Nat.eq_dec n y) as [<- | NY].
      * split; [auto|]. intros _. pose proof (stores_good _ _ S') as [_ P' _ _]. cbn [par] in P'. assert (IN : In n (elems t')) by (rewrite Q2; apply in_or_app; right; left; reflexivity). destruct (find_node t' n IN) as (k & c & l & r & ->). pose proof (good_plug _ _ _ S') as [_ P2 _ _]. cbn [rep] in P2. destruct P2 as (P2 & _). rewrite P2. discriminate.
      * destruct (in_dec Nat.eq_dec y (elems t)) as [IN | NI].
        -- split; [intros _; rewrite Q1, in_app_iff in IN; tauto|]. intros _. assert (IN' : In y (elems t')) by (rewrite Q2; rewrite Q1, in_app_iff in IN; apply in_or_app; cbn [In]; tauto). destruct (find_node t' y IN') as (k & c & l & r & ->). pose proof (good_plug _ _ _ S') as [_ P2 _ _]. cbn [rep] in P2. destruct P2 as (P2 & _). rewrite P2. discriminate.
        -- rewrite A3 by (auto). rewrite M. rewrite Q1, in_app_iff. tauto.
Qed.
Lemma step_del : forall s l i fuel, inv s l -> In i (keys l) -> 2 * Nat.log2 (S (length l)) + 2 <= fuel -> exists s', step fuel s (Del i) = Some s' /\ inv s' (drop l i).
Proof.
  intros [h idx] l i fuel (t & S & B & O & Q & M) K F. cbn [fst snd] in *. subst l. rewrite keys_tag in K. rewrite map_length in F. pose proof (height_log t B) as HL.
  destruct (delete_spec fuel h idx t i S B O K ltac:(lia)) as (h' & t' & X & n & Y & E1 & S' & B' & Q1 & Q2 & Q3 & MN & A). subst i.
  exists (h', idx). split; [cbn [step]; rewrite E1; reflexivity|]. exists t'. cbn [fst snd]. split; [exact S'|]. split; [exact B'|]. unfold ordered in *. rewrite Q1, map_app in O. cbn [map] in O. destruct (sorted_split _ _ _ O) as (O1 & O2 & O3 & O4). split.
  - rewrite Q3, map_app. apply sorted_app; auto. intros x y H1 H2. specialize (O3 x H1). specialize (O4 y H2). lia.
  - split.
    + rewrite Q1, Q3. symmetry. apply drop_mid; intros x H; [specialize (O3 (idx x) (in_map idx _ _ H)) | specialize (O4 (idx x) (in_map idx _ _ H))]; lia.
    + intro y. rewrite Q3. destruct (Nat.eq_dec n y) as [<- | NY].
      * rewrite MN. split; [congruence|]. intro H. exfalso. destruct S as (_ & _ & ND & _). rewrite Q1 in ND. apply NoDup_remove_2 in ND. exact (ND H).
      * destruct (in_dec Nat.eq_dec y (elems t)) as [IN | NI].
        -- assert (IN' : In y (elems t')). { rewrite Q3. rewrite Q1, in_app_iff in IN. apply in_or_app. cbn [In] in IN. tauto. }
           rewrite <- Q3. split; [auto|]. intros _. destruct (find_node t' y IN') as (k & c & l & r & ->). pose proof (good_plug _ _ _ S') as [_ P2 _ _]. cbn [rep] in P2. destruct P2 as (P2 & _). rewrite P2. discriminate.
        -- rewrite A by exact NI. rewrite M. rewrite Q1, !in_app_iff. cbn [In]. tauto.
Qed.
Lemma run_app : forall fuel ops s o, run fuel s (ops ++ [o]) = bind (run fuel s ops) (fun s => step fuel s o).
Proof. intros fuel. induction ops as [|a ops IH]; intros s o; cbn [app run]; [cbn [bind]; destruct (step fuel s o); reflexivity|]. destruct (step fuel s a); cbn [bind]; auto. Qed.
Lemma put_length : forall l i n, length (put l i n) = S (length l).
Proof. induction l as [|[j b] l IH]; intros i n; cbn [put]; [reflexivity|]. destruct (i <? j)%Z; cbn [length]; [reflexivity | rewrite IH; reflexivity]. Qed.
Lemma drop_length : forall l i, length (drop l i) <= length l.
Proof. induction l as [|e l IH]; intros i; unfold drop in *; cbn [filter length]; [lia|]. specialize (IH i). destruct (negb _); cbn [length]; lia. Qed.
Lemma history_length : forall ops l, history ops l -> length l <= length ops.
Proof. intros ops l H. induction H; [cbn [length]; lia| |]; rewrite app_length; cbn [length]; [rewrite put_length; lia | pose proof (drop_length l i); lia]. Qed.
Lemma log_mono : forall a b, a <= b -> Nat.log2 (S a) <= Nat.log2 (S b). Proof. intros. apply Nat.log2_le_mono. lia. Qed.
Theorem history_inv : forall ops l fuel idx0, history ops l -> 2 * Nat.log2 (S (length ops)) + 2 <= fuel -> exists s, run fuel (empty_heap, idx0) ops = Some s /\ inv s l.
Proof.
  intros ops l fuel idx0 H F. induction H as [|ops l n i H IH N NN NK|ops l i H IH K].
  - eexists. split; [reflexivity|]. exists E. cbn [fst snd elems map]. split; [repeat split; [constructor | intros []]|]. split; [split; [reflexivity | exists 0; constructor]|]. split; [constructor|]. split; [reflexivity|]. intro y. cbn. split; [congruence | intros []].
  - rewrite app_length in F. cbn [length] in F. pose proof (log_mono (length ops) (length ops + 1) ltac:(lia)) as LM. destruct IH as (s & R & IV); [lia|]. pose proof (log_mono _ _ (history_length ops l H)) as LM2.
    destruct (step_add s l n i fuel IV N NN NK ltac:(lia)) as (s' & E1 & IV'). exists s'. split; [rewrite run_app, R; exact E1 | exact IV'].
  - rewrite app_length in F. cbn [length] in F. pose proof (log_mono (length ops) (length ops + 1) ltac:(lia)) as LM. destruct IH as (s & R & IV); [lia|]. pose proof (log_mono _ _ (history_length ops l H)) as LM2.
    destruct (step_del s l i fuel IV K ltac:(lia)) as (s' & E1 & IV'). exists s'. split; [rewrite run_app, R; exact E1 | exact IV'].
Qed.
(** what can be observed *)
Lemma inv_sorted : forall s l, inv s l -> StronglySorted Z.lt (keys l).
Proof. intros s l (t & _ & _ & O & <- & _). rewrite keys_tag. exact O. Qed.
Lemma get_in : forall l i a, StronglySorted Z.lt (keys l) -> In (i, a) l -> get l i = a.
Proof.
  intros l i a. unfold get. induction l as [|[j b] l IH]; intros S H; [destruct H|]. cbn [find fst keys map] in *. inversion S; subst. destruct H as [H | H].
  - inversion H; subst. rewrite Z.eqb_refl. reflexivity.
  - rewrite Forall_forall in H3. assert (J : (j < i)%Z). { apply H3. unfold keys. apply in_map_iff. exists (i, a). auto. } destruct (Z.eqb_spec j i); [lia|]. apply IH; assumption.
Qed.
Lemma get_none : forall l i, ~ In i (keys l) -> get l i = 0.
Proof.
  intros l i. unfold get. induction l as [|[j b] l IH]; intros H; [reflexivity|]. cbn [find fst keys map In] in *. destruct (Z.eqb_spec j i) as [-> | J]; [exfalso; apply H; left; reflexivity|]. apply IH. intro X. apply H. right. exact X.
Qed.
Lemma inv_fuel : forall (s : heap * (nat -> Z)) l t, map (tag (snd s)) (elems t) = l -> balanced t -> height t <= 2 * Nat.log2 (S (length l)).
Proof. intros s l t <- B. rewrite map_length. apply height_log. exact B. Qed.
Lemma inv_lookup : forall s l i fuel, inv s l -> 2 * Nat.log2 (S (length l)) < fuel -> lookup fuel (fst s) (snd s) i = Some (get l i).
Proof.
  intros s l i fuel IV F. pose proof (inv_sorted s l IV) as SO. destruct IV as (t & S & B & O & Q & M). pose proof (inv_fuel s l t Q B) as HL. pose proof (stores_good _ _ S) as [C P ND NZ]. cbn [rep_ctx par cocc] in *. unfold lookup. rewrite C.
  destruct (search_spec (snd s) i t fuel (fst s) 0 P ltac:(lia) O ltac:(lia)) as (a & E1 & D). rewrite E1. f_equal. destruct D as [[-> N] | [D1 D2]].
  - symmetry. apply get_none. rewrite <- Q, keys_tag. exact N.
  - symmetry. apply get_in; [exact SO|]. rewrite <- Q. apply in_map_iff. exists a. unfold tag. rewrite D2. auto.
Qed.
Lemma inv_visit : forall s l fuel steps, inv s l -> 2 * Nat.log2 (S (length l)) < fuel -> length l <= steps -> visit_all steps fuel (fst s) = Some (nodes l).
Proof.
  intros s l fuel steps (t & S & B & O & Q & M) F L. pose proof (inv_fuel s l t Q B) as HL. rewrite <- Q, nodes_tag. apply visit_spec; [exact S | lia|]. rewrite <- Q, map_length in L. exact L.
Qed.
Lemma inv_next : forall s l X i n Y fuel, inv s l -> 2 * Nat.log2 (S (length l)) < fuel -> l = X ++ (i, n) :: Y -> rbt_next fuel (fst s) n = Some (hd 0 (nodes Y)) /\ rbt_prev fuel (fst s) n = Some (last (nodes X) 0).
Proof.
  intros s l X i n Y fuel (t & S & B & O & Q & M) F L. pose proof (inv_fuel s l t Q B) as HL.
  assert (EL : elems t = nodes X ++ n :: nodes Y). { rewrite <- (nodes_tag (snd s) (elems t)), Q, L. unfold nodes. rewrite map_app. reflexivity. }
  split; [eapply next_spec | eapply prev_spec]; try eassumption; lia.
Qed.
Lemma inv_ends : forall s l fuel, inv s l -> 2 * Nat.log2 (S (length l)) < fuel -> rbt_first fuel (fst s) = Some (hd 0 (nodes l)) /\ rbt_last fuel (fst s) = Some (last (nodes l) 0).
Proof.
  intros s l fuel (t & S & B & O & Q & M) F. pose proof (inv_fuel s l t Q B) as HL. rewrite <- Q, nodes_tag. split; [apply first_spec | apply last_spec]; auto; lia.
Qed.

(** ** The list of StoreModel is this tree *)
Definition abs (pv : nat -> StoreModel.prop) (l : list (Z * nat)) : StoreModel.tree := map (fun e => (fst e, pv (snd e))) l.
Lemma abs_find : forall pv l i, StoreModel.t_find (abs pv l) i = match find (fun e => (fst e =? i)%Z) l with Some e => Some (pv (snd e)) | None => None end.
Proof. intros pv l i. induction l as [|[j a] l IH]; [reflexivity|]. cbn [abs map fst snd find StoreModel.t_find]. destruct (j =? i)%Z; [reflexivity | exact IH]. Qed.
Lemma abs_insert : forall pv p n l i, ~ In n (nodes l) -> StoreModel.t_insert (abs pv l) i p = abs (fun x => if x =? n then p else pv x) (put l i n).
Proof.
  intros pv p n l i. assert (K : forall L, ~ In n (nodes L) -> abs (fun x => if x =? n then p else pv x) L = abs pv L).
  { intros L H. unfold abs. apply map_ext_in. intros [j a] X. cbn [fst snd]. destruct (Nat.eqb_spec a n) as [-> | _]; [|reflexivity]. exfalso. apply H. unfold nodes. apply in_map_iff. exists (j, n). auto. }
  induction l as [|[j a] l IH]; intro H; [cbn; rewrite Nat.eqb_refl; reflexivity|].
  assert (A : a <> n /\ ~ In n (nodes l)) by (cbn in H; tauto). destruct A as (A1 & A2). cbn [abs map fst snd StoreModel.t_insert put]. destruct (i <? j)%Z; cbn [abs map fst snd]; rewrite ?Nat.eqb_refl, (proj2 (Nat.eqb_neq _ _) A1).
  - do 2 f_equal. symmetry. apply K. exact A2.
  - f_equal. apply IH. exact A2.
Qed.
Lemma abs_remove : forall pv l i, StronglySorted Z.lt (keys l) -> StoreModel.t_remove (abs pv l) i = abs pv (drop l i).
Proof.
  intros pv l i. induction l as [|[j a] l IH]; intro S; [reflexivity|]. cbn [keys map fst] in S. inversion S; subst. cbn [abs map fst snd StoreModel.t_remove drop filter]. destruct (Z.eqb_spec j i) as [-> | J]; cbn [negb].
  - assert (D : drop l i = l). { clear - H2. rewrite Forall_forall in H2. unfold drop. induction l as [|[j b] l IH]; [reflexivity|]. cbn [filter fst]. assert (J : (i < j)%Z) by (apply H2; left; reflexivity). destruct (Z.eqb_spec j i); [lia|]. cbn [negb]. f_equal. apply IH. intros x X. apply H2. right. exact X. }
    unfold drop in D. rewrite D. reflexivity.
  - cbn [map fst snd]. f_equal. apply IH. exact H1.
Qed.
Lemma abs_last : forall pv l, StoreModel.t_last (abs pv l) = match rev l with [] => None | e :: _ => Some (fst e, pv (snd e)) end.
Proof.
  intros pv l. induction l as [|e l IH]; [reflexivity|]. cbn [abs map StoreModel.t_last rev]. destruct l as [|e' l]; [reflexivity|]. cbn [map]. change (StoreModel.t_last (abs pv (e' :: l)) = match rev (e' :: l) ++ [e] with [] => None | x :: _ => Some (fst x, pv (snd x)) end).
  rewrite IH. destruct (rev (e' :: l)) eqn:R; [|reflexivity]. apply (f_equal (@length _)) in R. rewrite rev_length in R. discriminate.
Qed.
