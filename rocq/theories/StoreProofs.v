From Coq Require Import ZArith List Bool Lia Sorting.Sorted.
Import ListNotations.
From Verif Require Import StrModel StoreModel StoreSpec.
Local Open Scope Z_scope.

Definition limit : Z := 0xffffffff.
Definition sorted (t : tree) : Prop := StronglySorted (fun a b => fst a < fst b) t.
Definition in_range (t : tree) : Prop := Forall (fun e => valid_index (fst e)) t.
Definition last_idx (t : tree) : Z := match t_last t with Some (i, _) => i | None => 0 end.
Definition lst (it : items) : tree := match it with Vec None => [] | Vec (Some l) => entries 0 l | Tree t => t end.
Definition shape (s : store) : Prop :=
  match its s with
  | Vec None => cap s = 0 /\ maxi s = 0
  | Vec (Some l) => Z.of_nat (length l) = cap s /\ 0 < cap s <= limit /\ maxi s < cap s
  | Tree _ => True
  end.
Record Inv (s : store) : Prop := {
  inv_sorted : sorted (lst (its s));
  inv_range : in_range (lst (its s));
  inv_num : num s = Z.of_nat (length (lst (its s)));
  inv_max : maxi s = last_idx (lst (its s));
  inv_shape : shape s
}.

Lemma u32_small : forall x, 0 <= x < 4294967296 -> u32 x = x.
Proof. intros x H. unfold u32. change (2 ^ 32) with 4294967296. apply Z.mod_small. exact H. Qed.
Lemma u32_bound : forall x, 0 <= u32 x < 4294967296.
Proof. intro x. unfold u32. change (2 ^ 32) with 4294967296. apply Z.mod_pos_bound. lia. Qed.

(** ** sorted lists *)
Lemma sorted_cons : forall e t, sorted (e :: t) <-> sorted t /\ Forall (fun x => fst e < fst x) t.
Proof. intros e t. split; [intro H; inversion H; subst; split; assumption | intros [A B]; constructor; assumption]. Qed.

Lemma find_none_lt : forall t i, Forall (fun x => i < fst x) t -> t_find t i = None.
Proof.
  intros t i H. induction H as [|[j q] t H F IH]; [reflexivity|]. cbn [t_find fst] in *.
  rewrite (proj2 (Z.eqb_neq j i)) by lia. exact IH.
Qed.
Lemma find_in : forall t i p, t_find t i = Some p -> In (i, p) t.
Proof.
  intros t i p. induction t as [|[j q] t IH]; intro H; [discriminate|]. cbn in H. destruct (Z.eqb_spec j i) as [-> | N].
  - injection H as ->. left. reflexivity.
  - right. apply IH. exact H.
Qed.
Lemma in_find : forall t i p, sorted t -> In (i, p) t -> t_find t i = Some p.
Proof.
  intros t i p S H. induction t as [|[j q] t IH]; [destruct H|]. apply sorted_cons in S. destruct S as [S F]. cbn [t_find].
  destruct H as [H | H].
  - injection H as -> ->. rewrite Z.eqb_refl. reflexivity.
  - rewrite Forall_forall in F. specialize (F _ H). cbn [fst] in F. rewrite (proj2 (Z.eqb_neq j i)) by lia. apply IH; assumption.
Qed.
Lemma find_none_notin : forall t i, t_find t i = None -> forall p, ~ In (i, p) t.
Proof.
  intros t i. induction t as [|[j q] t IH]; intros H p HI; [destruct HI|]. cbn in H. destruct (Z.eqb_spec j i) as [-> | N]; [discriminate|].
  destruct HI as [E | HI]; [injection E as -> _; lia | apply (IH H p HI)].
Qed.

Lemma insert_in : forall t i p e, In e (t_insert t i p) <-> e = (i, p) \/ In e t.
Proof.
  intros t i p e. induction t as [|[j q] t IH]; cbn [t_insert].
  - cbn [In]. split; intros [H | H]; subst; auto; destruct H.
  - destruct (i <? j); cbn [In] in *; [split; intros [H | H]; subst; auto; tauto|]. rewrite IH. tauto.
Qed.
Lemma insert_sorted : forall t i p, sorted t -> t_find t i = None -> sorted (t_insert t i p).
Proof.
  intros t i p. induction t as [|[j q] t IH]; intros S F; cbn [t_insert].
  - constructor; constructor.
  - apply sorted_cons in S. destruct S as [S A]. cbn in F. destruct (Z.eqb_spec j i) as [-> | N]; [discriminate|].
    destruct (Z.ltb_spec i j).
    + apply sorted_cons. split; [apply sorted_cons; split; assumption|]. constructor; [exact H|].
      eapply Forall_impl; [|exact A]. cbn. intros. lia.
    + apply sorted_cons. split; [apply IH; assumption|]. apply Forall_forall. intros e He. apply insert_in in He. cbn [fst].
      destruct He as [-> | He]; [cbn [fst]; lia | rewrite Forall_forall in A; apply (A e He)].
Qed.
Lemma insert_length : forall t i p, length (t_insert t i p) = S (length t).
Proof. intros t i p. induction t as [|[j q] t IH]; cbn [t_insert]; [reflexivity|]. destruct (i <? j); cbn [length]; [reflexivity | rewrite IH; reflexivity]. Qed.
Lemma insert_find : forall t i p j, t_find t i = None -> t_find (t_insert t i p) j = if j =? i then Some p else t_find t j.
Proof.
  intros t i p j. induction t as [|[k q] t IH]; intro F; cbn [t_insert].
  - cbn. rewrite (Z.eqb_sym i j). reflexivity.
  - cbn in F. destruct (Z.eqb_spec k i) as [-> | N]; [discriminate|]. destruct (i <? k); cbn [t_find].
    + rewrite (Z.eqb_sym i j). reflexivity.
    + destruct (Z.eqb_spec k j) as [-> | N2]; [rewrite (proj2 (Z.eqb_neq j i)) by lia; reflexivity | apply IH; exact F].
Qed.
Lemma insert_greatest : forall t i p, Forall (fun x => fst x < i) t -> t_insert t i p = t ++ [(i, p)].
Proof.
  intros t i p H. induction H as [|[j q] t H F IH]; [reflexivity|]. cbn [t_insert fst app] in *.
  rewrite (proj2 (Z.ltb_ge i j)) by lia. rewrite IH. reflexivity.
Qed.

Lemma update_fst : forall t i p, map fst (t_update t i p) = map fst t.
Proof. intros t i p. induction t as [|[j q] t IH]; [reflexivity|]. cbn [t_update]. destruct (j =? i); cbn [map]; [reflexivity | rewrite IH; reflexivity]. Qed.
Lemma update_find : forall t i p j, t_find t i <> None -> t_find (t_update t i p) j = if j =? i then Some p else t_find t j.
Proof.
  intros t i p j. induction t as [|[k q] t IH]; intro F; [contradiction|]. cbn in F |- *. destruct (Z.eqb_spec k i) as [-> | N]; cbn [t_find].
  - rewrite (Z.eqb_sym i j). destruct (j =? i); reflexivity.
  - destruct (Z.eqb_spec k j) as [-> | N2]; [rewrite (proj2 (Z.eqb_neq j i)) by lia; reflexivity | apply IH; exact F].
Qed.

Lemma remove_in : forall t i e, sorted t -> (In e (t_remove t i) <-> In e t /\ fst e <> i).
Proof.
  intros t i e. induction t as [|[j q] t IH]; intro S; [cbn; tauto|]. apply sorted_cons in S. destruct S as [S A]. cbn [t_remove].
  rewrite Forall_forall in A. cbn [fst] in A. destruct (Z.eqb_spec j i) as [-> | N].
  - cbn [In]. split.
    + intro H. specialize (A e H). split; [auto | lia].
    + intros [[<- | H] N]; [contradiction N; reflexivity | exact H].
  - cbn [In]. rewrite (IH S). split; [intros [<- | [H1 H2]]; cbn [fst]; auto | intros [[H | H] H2]; auto].
Qed.
Lemma remove_sorted : forall t i, sorted t -> sorted (t_remove t i).
Proof.
  intros t i. induction t as [|[j q] t IH]; intro S; [exact S|]. pose proof S as S0. apply sorted_cons in S. destruct S as [S A]. cbn [t_remove].
  destruct (j =? i); [exact S|]. apply sorted_cons. split; [apply IH; exact S|]. apply Forall_forall. intros e He.
  apply remove_in in He; [|exact S]. rewrite Forall_forall in A. apply A. tauto.
Qed.
Lemma remove_find : forall t i j, sorted t -> t_find (t_remove t i) j = if j =? i then None else t_find t j.
Proof.
  intros t i j. induction t as [|[k q] t IH]; intro S; [cbn; destruct (j =? i); reflexivity|]. apply sorted_cons in S. destruct S as [S A].
  cbn [t_remove t_find]. destruct (Z.eqb_spec k i) as [-> | N].
  - destruct (Z.eqb_spec j i) as [E | N]; [rewrite E; apply find_none_lt; exact A|]. rewrite (proj2 (Z.eqb_neq i j)) by lia. reflexivity.
  - cbn [t_find]. destruct (Z.eqb_spec k j) as [-> | N2]; [rewrite (proj2 (Z.eqb_neq j i)) by lia; reflexivity | apply IH; exact S].
Qed.
Lemma remove_length : forall t i, t_find t i <> None -> S (length (t_remove t i)) = length t.
Proof.
  intros t i. induction t as [|[k q] t IH]; intro F; [contradiction|]. cbn in F |- *. destruct (k =? i); [reflexivity|]. cbn [length]. rewrite IH by exact F. reflexivity.
Qed.

Lemma t_last_in : forall t x, t_last t = Some x -> In x t.
Proof.
  induction t as [|e t IH]; intros x H; [discriminate|]. destruct t as [|e' t']; [injection H as ->; left; reflexivity|]. right. apply IH. exact H.
Qed.
Lemma t_last_app : forall t x, t_last (t ++ [x]) = Some x.
Proof. induction t as [|e t IH]; intro x; [reflexivity|]. cbn [app]. specialize (IH x). destruct (t ++ [x]) eqn:E; [destruct t; discriminate|]. exact IH. Qed.
Lemma last_idx_ge : forall t e, sorted t -> in_range t -> In e t -> fst e <= last_idx t.
Proof.
  intros t e S R H. induction t as [|a t IH]; [destruct H|]. apply sorted_cons in S. destruct S as [S A]. inversion R as [|? ? R1 R2]; subst.
  destruct t as [|b t'].
  - destruct H as [<- | H]; [|destruct H]. unfold last_idx. cbn. destruct a. cbn. lia.
  - assert (E : last_idx (a :: b :: t') = last_idx (b :: t')) by reflexivity. rewrite E.
    destruct H as [<- | H]; [|apply IH; assumption].
    assert (fst a < fst b) by (inversion A; assumption). specialize (IH S R2).
    assert (fst b <= last_idx (b :: t')); [|lia]. clear - S R2.
    revert b S R2. induction t' as [|c t' IH]; intros b S R.
    + unfold last_idx. cbn. destruct b. cbn. lia.
    + apply sorted_cons in S. destruct S as [S A]. inversion R as [|? ? R1 R2]; subst. assert (fst b < fst c) by (inversion A; assumption).
      specialize (IH c S R2). assert (E : last_idx (b :: c :: t') = last_idx (c :: t')) by reflexivity. rewrite E. lia.
Qed.
Lemma last_idx_range : forall t, in_range t -> 0 <= last_idx t < limit.
Proof.
  intros t R. unfold last_idx. destruct (t_last t) as [[i p]|] eqn:E; [|unfold limit; lia]. apply t_last_in in E.
  unfold in_range in R. rewrite Forall_forall in R. specialize (R _ E). unfold valid_index in R. cbn [fst] in R. unfold limit. lia.
Qed.
(** the last index is the greatest one *)
Lemma last_idx_is : forall t m, sorted t -> in_range t -> (forall e, In e t -> fst e <= m) -> (t = [] -> m = 0) ->
  (t <> [] -> exists p, In (m, p) t) -> last_idx t = m.
Proof.
  intros t m S R U Z0 E. destruct t as [|a t]; [symmetry; apply Z0; reflexivity|].
  destruct (E ltac:(discriminate)) as [p P]. pose proof (last_idx_ge _ _ S R P) as G. cbn [fst] in G.
  unfold last_idx in *. destruct (t_last (a :: t)) as [[i q]|] eqn:L.
  - apply t_last_in in L. specialize (U _ L). cbn [fst] in U. lia.
  - exfalso. clear - L. revert a L. induction t as [|b t IH]; intros a L; [discriminate|]. apply (IH b). exact L.
Qed.
Lemma last_idx_in : forall t, t <> [] -> exists p, In (last_idx t, p) t.
Proof.
  intros t N. unfold last_idx. destruct (t_last t) as [[i p]|] eqn:L; [exists p; apply t_last_in; exact L|].
  exfalso. destruct t as [|a t]; [congruence|]. clear - L. revert a L. induction t as [|b t IH]; intros a L; [discriminate|]. apply (IH b). exact L.
Qed.

(** how many indices there can be *)
Lemma sorted_count : forall t lo hi, sorted t -> Forall (fun e => lo <= fst e < hi) t -> lo <= hi -> Z.of_nat (length t) <= hi - lo.
Proof.
  intros t. induction t as [|a t IH]; intros lo hi S R L; [cbn; lia|]. apply sorted_cons in S. destruct S as [S A]. inversion R as [|? ? R1 R2]; subst.
  assert (Z.of_nat (length t) <= hi - (fst a + 1)).
  { apply IH; [exact S| |lia]. rewrite Forall_forall in *. intros e He. specialize (A e He). specialize (R2 e He). lia. }
  cbn [length]. lia.
Qed.
Lemma count_limit : forall t, sorted t -> in_range t -> Z.of_nat (length t) <= limit.
Proof. intros t S R. assert (H : Z.of_nat (length t) <= limit - 0) by (apply sorted_count; [exact S | exact R | unfold limit; lia]). lia. Qed.

(** ** vectors *)
Lemma set_nth_length : forall l n x, length (set_nth l n x) = length l.
Proof. induction l as [|a l IH]; intros n x; [reflexivity|]. destruct n; cbn [set_nth length]; [reflexivity | rewrite IH; reflexivity]. Qed.
Lemma set_nth_same : forall l n x, (n < length l)%nat -> nth_error (set_nth l n x) n = Some x.
Proof. induction l as [|a l IH]; intros n x H; [cbn in H; lia|]. destruct n; [reflexivity|]. cbn in H |- *. apply IH. lia. Qed.
Lemma set_nth_other : forall l n m x, n <> m -> nth_error (set_nth l n x) m = nth_error l m.
Proof. induction l as [|a l IH]; intros n m x H; [reflexivity|]. destruct n, m; cbn [set_nth nth_error]; try reflexivity; [congruence|]. apply IH. congruence. Qed.

Lemma entries_ge : forall l k, Forall (fun e => k <= fst e < k + Z.of_nat (length l)) (entries k l).
Proof.
  induction l as [|[p|] l IH]; intro k; cbn [entries length]; [constructor| |].
  - constructor; [cbn [fst]; lia|]. eapply Forall_impl; [|apply IH]. cbn. intros. lia.
  - eapply Forall_impl; [|apply IH]. cbn. intros. lia.
Qed.
Lemma entries_sorted : forall l k, sorted (entries k l).
Proof.
  induction l as [|[p|] l IH]; intro k; cbn [entries]; [constructor| |apply IH].
  apply sorted_cons. split; [apply IH|]. eapply Forall_impl; [|apply entries_ge]. cbn. intros. lia.
Qed.
Lemma entries_find : forall l k n, t_find (entries k l) (k + Z.of_nat n) = match nth_error l n with Some x => x | None => None end.
Proof.
  induction l as [|x l IH]; intros k n; [destruct n; reflexivity|]. destruct n as [|n].
  - cbn [nth_error]. replace (k + Z.of_nat 0) with k by lia. destruct x as [p|]; cbn [entries].
    + cbn [t_find]. rewrite Z.eqb_refl. reflexivity.
    + apply find_none_lt. eapply Forall_impl; [|apply entries_ge]. cbn. intros. lia.
  - cbn [nth_error]. replace (k + Z.of_nat (S n)) with (k + 1 + Z.of_nat n) by lia. rewrite <- (IH (k + 1) n). destruct x as [p|]; cbn [entries]; [|reflexivity].
    cbn [t_find]. rewrite (proj2 (Z.eqb_neq k (k + 1 + Z.of_nat n))) by lia. reflexivity.
Qed.
Lemma entries_find0 : forall l i, 0 <= i -> t_find (entries 0 l) i = match nth_error l (Z.to_nat i) with Some x => x | None => None end.
Proof. intros l i H. rewrite <- (entries_find l 0). f_equal. lia. Qed.
Lemma entries_insert : forall l k n p, nth_error l n = Some None -> entries k (set_nth l n (Some p)) = t_insert (entries k l) (k + Z.of_nat n) p.
Proof.
  induction l as [|x l IH]; intros k n p H; [destruct n; discriminate|]. destruct n as [|n].
  - cbn in H. injection H as ->. cbn [set_nth entries]. replace (k + Z.of_nat 0) with k by lia.
    pose proof (entries_ge l (k + 1)) as G. destruct (entries (k + 1) l) as [|[j q] t]; [reflexivity|]. inversion G as [|? ? G1 G2]; subst. cbn [fst t_insert] in *.
    rewrite (proj2 (Z.ltb_lt k j)) by lia. reflexivity.
  - cbn in H. cbn [set_nth]. replace (k + Z.of_nat (S n)) with (k + 1 + Z.of_nat n) by lia. destruct x as [q|]; cbn [entries].
    + cbn [t_insert]. rewrite (proj2 (Z.ltb_ge (k + 1 + Z.of_nat n) k)) by lia. rewrite IH by exact H. reflexivity.
    + apply IH. exact H.
Qed.
Lemma entries_update : forall l k n p q, nth_error l n = Some (Some q) -> entries k (set_nth l n (Some p)) = t_update (entries k l) (k + Z.of_nat n) p.
Proof.
  induction l as [|x l IH]; intros k n p q H; [destruct n; discriminate|]. destruct n as [|n].
  - cbn in H. injection H as ->. cbn [set_nth entries t_update]. replace (k + Z.of_nat 0) with k by lia. rewrite Z.eqb_refl. reflexivity.
  - cbn in H. cbn [set_nth]. replace (k + Z.of_nat (S n)) with (k + 1 + Z.of_nat n) by lia. destruct x as [r|]; cbn [entries].
    + cbn [t_update]. rewrite (proj2 (Z.eqb_neq k (k + 1 + Z.of_nat n))) by lia. erewrite IH by exact H. reflexivity.
    + eapply IH. exact H.
Qed.
Lemma entries_remove : forall l k n q, nth_error l n = Some (Some q) -> entries k (set_nth l n None) = t_remove (entries k l) (k + Z.of_nat n).
Proof.
  induction l as [|x l IH]; intros k n q H; [destruct n; discriminate|]. destruct n as [|n].
  - cbn in H. injection H as ->. cbn [set_nth entries t_remove]. replace (k + Z.of_nat 0) with k by lia. rewrite Z.eqb_refl. reflexivity.
  - cbn in H. cbn [set_nth]. replace (k + Z.of_nat (S n)) with (k + 1 + Z.of_nat n) by lia. destruct x as [r|]; cbn [entries].
    + cbn [t_remove]. rewrite (proj2 (Z.eqb_neq k (k + 1 + Z.of_nat n))) by lia. erewrite IH by exact H. reflexivity.
    + eapply IH. exact H.
Qed.
Lemma entries_repeat : forall n k, entries k (repeat None n) = [].
Proof. induction n as [|n IH]; intro k; [reflexivity | apply IH]. Qed.
Lemma entries_app : forall l1 l2 k, entries k (l1 ++ l2) = entries k l1 ++ entries (k + Z.of_nat (length l1)) l2.
Proof.
  induction l1 as [|[p|] l1 IH]; intros l2 k; cbn [app entries length].
  - f_equal. lia.
  - rewrite IH. cbn [app]. do 2 f_equal. f_equal. lia.
  - rewrite IH. do 2 f_equal. lia.
Qed.

(** tree to vector *)
Lemma to_vec_fold : forall t v n, sorted t -> Forall (fun e => 0 <= fst e < n) t -> Z.of_nat (length v) = n ->
  (forall x y, In x (entries 0 v) -> In y t -> fst x < fst y) ->
  let v' := fold_left (fun v e => if fst e <? n then set_nth v (Z.to_nat (fst e)) (Some (snd e)) else v) t v in
  entries 0 v' = entries 0 v ++ t /\ length v' = length v.
Proof.
  induction t as [|[i p] t IH]; intros v n S R L D; [rewrite app_nil_r; split; reflexivity|].
  apply sorted_cons in S. destruct S as [S A]. inversion R as [|? ? R1 R2]; subst. cbn [fold_left fst snd] in *.
  rewrite (proj2 (Z.ltb_lt i (Z.of_nat (length v)))) by lia.
  assert (NN : nth_error v (Z.to_nat i) = Some None).
  { destruct (nth_error v (Z.to_nat i)) as [[q|]|] eqn:E; [|reflexivity | apply nth_error_None in E; lia]. exfalso.
    pose proof (entries_find0 v i ltac:(lia)) as F. rewrite E in F. apply find_in in F. specialize (D _ (i, p) F (or_introl eq_refl)). cbn [fst] in D. lia. }
  assert (EI : entries 0 (set_nth v (Z.to_nat i) (Some p)) = entries 0 v ++ [(i, p)]).
  { rewrite entries_insert by exact NN. rewrite Z2Nat.id by lia. rewrite Z.add_0_l. apply insert_greatest. apply Forall_forall. intros x Hx. apply (D x (i, p) Hx). left. reflexivity. }
  destruct (IH (set_nth v (Z.to_nat i) (Some p)) (Z.of_nat (length v)) S R2) as [E1 E2].
  - rewrite set_nth_length. reflexivity.
  - intros x y Hx Hy. rewrite EI in Hx. apply in_app_or in Hx. destruct Hx as [Hx | [<- | []]].
    + apply D; [exact Hx | right; exact Hy].
    + rewrite Forall_forall in A. apply (A y Hy).
  - cbv zeta in E1, E2. rewrite E1, EI, <- app_assoc. split; [reflexivity|]. rewrite E2. apply set_nth_length.
Qed.
Lemma tree_to_vec_spec : forall t n, t <> [] -> sorted t -> Forall (fun e => 0 <= fst e < n) t -> 0 <= n ->
  exists v, tree_to_vec t n = Some v /\ entries 0 v = t /\ Z.of_nat (length v) = n.
Proof.
  intros t n N S R P. unfold tree_to_vec. destruct t as [|e t]; [congruence|].
  destruct (to_vec_fold (e :: t) (repeat None (Z.to_nat n)) n S R) as [E1 E2].
  - rewrite repeat_length. lia.
  - rewrite entries_repeat. intros x y [].
  - eexists. split; [reflexivity|]. split; [rewrite E1, entries_repeat; reflexivity|]. rewrite E2, repeat_length. lia.
Qed.

(** vector to tree *)
Lemma entries_cut : forall l m, (forall e, In e (entries 0 l) -> fst e <= m) -> 0 <= m ->
  entries 0 (firstn (Z.to_nat (m + 1)) l) = entries 0 l.
Proof.
  intros l m U P. rewrite <- (firstn_skipn (Z.to_nat (m + 1)) l) at 2. rewrite entries_app.
  assert (E : entries (0 + Z.of_nat (length (firstn (Z.to_nat (m + 1)) l))) (skipn (Z.to_nat (m + 1)) l) = []).
  { destruct (entries _ (skipn (Z.to_nat (m + 1)) l)) as [|e t] eqn:E; [reflexivity|]. exfalso.
    pose proof (entries_ge (skipn (Z.to_nat (m + 1)) l) (0 + Z.of_nat (length (firstn (Z.to_nat (m + 1)) l)))) as G.
    rewrite E in G. inversion G as [|? ? G1 G2]; subst.
    assert (In e (entries 0 l)).
    { rewrite <- (firstn_skipn (Z.to_nat (m + 1)) l), entries_app, E. apply in_or_app. right. left. reflexivity. }
    specialize (U e H). rewrite firstn_length in G1. rewrite skipn_length in G1. lia. }
  rewrite E, app_nil_r. reflexivity.
Qed.

Lemma scan_down_spec : forall l m, (m < length l)%nat -> (forall e, In e (entries 0 l) -> fst e <= Z.of_nat m) ->
  in_range (entries 0 l) -> scan_down l m = SOk (last_idx (entries 0 l)).
Proof.
  intros l m. induction m as [|m IH]; intros L U R.
  - cbn [scan_down]. f_equal. symmetry. apply last_idx_is; [apply entries_sorted | exact R | exact U | reflexivity|].
    intro N. destruct (entries 0 l) as [|[i p] t] eqn:E; [congruence|]. specialize (U (i, p) (or_introl eq_refl)). cbn [fst] in U.
    inversion R as [|? ? R1 R2]; subst. unfold valid_index in R1. cbn [fst] in R1. assert (i = 0) by lia. subst. exists p. left. reflexivity.
  - cbn [scan_down]. destruct (nth_error l (S m)) as [[p|]|] eqn:E; [| |apply nth_error_None in E; lia].
    + f_equal. symmetry. assert (I : In (Z.of_nat (S m), p) (entries 0 l)).
      { apply find_in. rewrite entries_find0 by lia. rewrite Nat2Z.id, E. reflexivity. }
      apply last_idx_is; [apply entries_sorted | exact R | exact U | | intros _; exists p; exact I].
      intro N. rewrite N in I. destruct I.
    + apply IH; [lia| |exact R]. intros e He. specialize (U e He).
      assert (fst e <> Z.of_nat (S m)); [|lia]. intro EQ. destruct e as [i q]. cbn [fst] in EQ. subst i.
      apply (in_find _ _ _ (entries_sorted l 0)) in He. rewrite entries_find0 in He by lia. rewrite Nat2Z.id, E in He. discriminate.
Qed.

(** ** the storage *)
Lemma lookup_spec : forall s i, Inv s -> valid_index i -> s_lookup s i = SOk (t_find (lst (its s)) i).
Proof.
  intros s i [S R N M SH] V. unfold s_lookup. unfold shape in SH. unfold valid_index in V.
  destruct (its s) as [[l|]|t] eqn:E; cbn [lst] in *; [| |reflexivity].
  - destruct SH as (L & C & MC). rewrite (proj2 (Z.eqb_neq (cap s) 0)) by lia.
    destruct (Z.ltb_spec (maxi s) i) as [G | G].
    + destruct (t_find (entries 0 l) i) as [q|] eqn:F; [|reflexivity]. exfalso. apply find_in in F.
      pose proof (last_idx_ge _ _ S R F) as H. cbn [fst] in H. lia.
    + rewrite entries_find0 by lia. destruct (nth_error l (Z.to_nat i)) eqn:F; [reflexivity|]. apply nth_error_None in F. lia.
  - destruct SH as [-> _]. reflexivity.
Qed.

Lemma fixup_spec : forall s n max, sorted (lst (its s)) -> in_range (lst (its s)) -> shape s ->
  (forall e, In e (lst (its s)) -> fst e <= maxi s) -> 0 <= maxi s <= max -> max < limit ->
  (its s = Tree [] -> u32 (n * 3) <= max) ->
  exists s', fixup s n max = SOk s' /\ lst (its s') = lst (its s) /\ num s' = n /\ maxi s' = max /\ shape s' /\
    (its s' = Vec None -> its s = Vec None /\ cap s <> 0).
Proof.
  intros s n max S R SH U M ML NB. unfold fixup. unfold shape in SH. destruct (its s) as [v|t] eqn:E.
  - destruct ((u32 (n * 4) <? max) && (16 <? max)).
    + destruct v as [l|]; cbn [vec_to_tree sbind].
      * destruct SH as (L & C & MC). cbn [lst] in *. rewrite (proj2 (Z.ltb_lt (maxi s) (Z.of_nat (length l)))) by lia. cbn [sbind].
        eexists. split; [reflexivity|]. cbn [its num maxi lst]. split; [apply entries_cut; [exact U | lia]|].
        split; [reflexivity|]. split; [reflexivity|]. split; [exact I | discriminate].
      * eexists. split; [reflexivity|]. cbn [its num maxi lst]. split; [reflexivity|]. split; [reflexivity|]. split; [reflexivity|]. split; [exact I | discriminate].
    + destruct (Z.leb_spec (cap s) max) as [G | G].
      * rewrite (u32_small (max + 1)) by (unfold limit in ML; lia).
        set (nlen := Z.min _ _). assert (HN : max < nlen <= limit /\ 0 < nlen) by (unfold nlen, limit in *; lia). clearbody nlen.
        eexists. split; [reflexivity|]. cbn [its num maxi lst]. set (old := match v with None => [] | Some l => l end).
        assert (LO : Z.of_nat (length old) = cap s) by (unfold old; destruct v; cbn [length]; lia).
        rewrite (firstn_all2 old) by lia. rewrite entries_app, entries_repeat, app_nil_r.
        split; [unfold old; destruct v; reflexivity|]. split; [reflexivity|]. split; [reflexivity|]. split; [|discriminate].
        unfold shape. cbn [its cap maxi]. rewrite app_length, repeat_length. lia.
      * eexists. split; [reflexivity|]. cbn [its num maxi lst]. split; [reflexivity|]. split; [reflexivity|]. split; [reflexivity|].
        unfold shape. cbn [its cap maxi]. destruct v as [l|]; [split; [lia | discriminate]|]. lia.
  - destruct (Z.ltb_spec max (u32 (n * 3))) as [G | G].
    + rewrite (u32_small (max + 1)) by (unfold limit in ML; lia). cbn [lst] in *.
      destruct t as [|e t]; [specialize (NB eq_refl); lia|].
      destruct (tree_to_vec_spec (e :: t) (max + 1)) as (v & E1 & E2 & E3); [discriminate | exact S | | lia|].
      { apply Forall_forall. intros x Hx. specialize (U x Hx). unfold in_range in R. rewrite Forall_forall in R. specialize (R x Hx). unfold valid_index in R. lia. }
      rewrite E1. eexists. split; [reflexivity|]. cbn [its num maxi lst]. split; [exact E2|]. split; [reflexivity|]. split; [reflexivity|].
      split; [|discriminate]. unfold shape. cbn [its cap maxi]. unfold limit in *. lia.
    + eexists. split; [reflexivity|]. cbn [its num maxi lst]. split; [reflexivity|]. split; [reflexivity|]. split; [reflexivity|]. split; [exact I | discriminate].
Qed.

Lemma inv_le_max : forall s, Inv s -> forall e, In e (lst (its s)) -> fst e <= maxi s.
Proof. intros s [S R N M SH] e He. rewrite M. apply last_idx_ge; assumption. Qed.
Lemma inv_max_range : forall s, Inv s -> 0 <= maxi s < limit.
Proof. intros s [S R N M SH]. rewrite M. apply last_idx_range. exact R. Qed.

Lemma insert_range : forall t i p, in_range t -> valid_index i -> in_range (t_insert t i p).
Proof.
  intros t i p R V. unfold in_range in *. rewrite Forall_forall in *. intros e He. apply insert_in in He. destruct He as [-> | He]; [exact V | apply R; exact He].
Qed.
Lemma insert_last : forall t i p, sorted t -> in_range t -> valid_index i -> t_find t i = None ->
  last_idx (t_insert t i p) = Z.max i (last_idx t).
Proof.
  intros t i p S R V F. apply last_idx_is; [apply insert_sorted; assumption | apply insert_range; assumption | | |].
  - intros e He. apply insert_in in He. destruct He as [-> | He]; [cbn [fst]; lia|]. pose proof (last_idx_ge _ _ S R He). lia.
  - intro E. pose proof (insert_length t i p) as L. rewrite E in L. discriminate.
  - intros _. destruct (Z.max_spec i (last_idx t)) as [[L ->] | [L ->]].
    + destruct t as [|a t]; [unfold last_idx, valid_index in *; cbn in L; lia|]. destruct (last_idx_in (a :: t)) as [q Q]; [discriminate|].
      exists q. apply insert_in. right. exact Q.
    + exists p. apply insert_in. left. reflexivity.
Qed.

(** adding a new index *)
Lemma add_spec : forall s i p, Inv s -> valid_index i -> t_find (lst (its s)) i = None ->
  ~ (its s = Tree [] /\ i < 3) ->
  exists s', s_add s i p = SOk s' /\ Inv s' /\ lst (its s') = t_insert (lst (its s)) i p.
Proof.
  intros s i p I V F NB. pose proof (inv_le_max s I) as U. pose proof (inv_max_range s I) as MR. destruct I as [S R N M SH].
  pose proof (insert_sorted _ i p S F) as S'. pose proof (insert_range _ i p R V) as R'. pose proof (insert_last _ i p S R V F) as LS.
  pose proof (count_limit _ S' R') as CL. rewrite insert_length in CL. unfold limit in *.
  assert (NU : u32 (num s + 1) = num s + 1) by (apply u32_small; lia).
  unfold s_add. rewrite NU. unfold valid_index in V.
  destruct (fixup_spec s (num s + 1) (Z.max i (maxi s)) S R SH U) as (s1 & E1 & L1 & N1 & M1 & SH1 & NV); [lia | unfold limit; lia | |].
  { intro ET. destruct (Z_lt_dec i 3) as [L | L]; [exfalso; apply NB; auto|]. rewrite N, ET. cbn [lst length].
    change (u32 ((Z.of_nat 0 + 1) * 3)) with 3. lia. }
  rewrite E1. cbn [sbind]. unfold shape in SH1. destruct (its s1) as [[l|]|t] eqn:ET.
  - cbn [write_slot]. destruct SH1 as (SL & SC & SM). rewrite (proj2 (Z.ltb_lt i (Z.of_nat (length l)))) by lia. cbn [sbind].
    eexists. split; [reflexivity|]. cbn [lst] in L1.
    assert (NN : nth_error l (Z.to_nat i) = Some None).
    { destruct (nth_error l (Z.to_nat i)) as [[q|]|] eqn:E; [|reflexivity | apply nth_error_None in E; lia]. exfalso.
      rewrite <- L1, entries_find0, E in F by lia. discriminate. }
    assert (EI : entries 0 (set_nth l (Z.to_nat i) (Some p)) = t_insert (lst (its s)) i p).
    { rewrite entries_insert by exact NN. rewrite Z2Nat.id, Z.add_0_l, L1 by lia. reflexivity. }
    split; [|cbn [with_items its lst]; exact EI].
    constructor; unfold with_items; cbn [its lst num maxi cap]; try rewrite EI; [exact S' | exact R' | rewrite insert_length; lia | lia|].
    unfold shape. cbn [its cap maxi]. rewrite set_nth_length. lia.
  - exfalso. destruct (NV eq_refl) as [E2 E3]. unfold shape in SH. rewrite E2 in SH. destruct SH. congruence.
  - eexists. split; [reflexivity|]. cbn [lst] in L1. subst t. split; [|reflexivity].
    constructor; unfold with_items; cbn [its lst num maxi cap]; [exact S' | exact R' | rewrite insert_length; lia | lia | exact Logic.I].
Qed.

(** the crash *)
Lemma add_crash : forall s i p, Inv s -> its s = Tree [] -> 0 <= i < 3 -> s_add s i p = SUB.
Proof.
  intros s i p [S R N M SH] E V. rewrite E in *. cbn [lst] in *. cbn in M, N. unfold s_add, fixup. rewrite E, N, M. cbn [Z.of_nat].
  change (u32 (0 + 1)) with 1. change (u32 (1 * 3)) with 3. rewrite Z.max_l by lia. rewrite (proj2 (Z.ltb_lt i 3)) by lia. reflexivity.
Qed.

(** overwriting an existing index *)
Lemma forall_map_fst : forall (P : Z -> Prop) (t : tree), Forall (fun e => P (fst e)) t <-> Forall P (map fst t).
Proof. intros P t. rewrite Forall_map. reflexivity. Qed.
Lemma sorted_map_fst : forall t u : tree, map fst t = map fst u -> sorted t -> sorted u.
Proof.
  induction t as [|a t IH]; intros [|b u] E S; try discriminate; [exact S|]. cbn in E. injection E as E1 E2.
  apply sorted_cons in S. destruct S as [S A]. apply sorted_cons. split; [apply (IH u E2 S)|].
  rewrite (forall_map_fst (fun x => fst b < x)), <- E2, <- E1. rewrite <- forall_map_fst. exact A.
Qed.
Lemma last_map_fst : forall t u : tree, map fst t = map fst u -> last_idx t = last_idx u.
Proof.
  induction t as [|a t IH]; intros [|b u] E; try discriminate; [reflexivity|]. cbn in E. injection E as E1 E2.
  specialize (IH u E2). destruct t as [|c t], u as [|d u]; try discriminate.
  - unfold last_idx. cbn. destruct a, b. cbn in E1. congruence.
  - exact IH.
Qed.
Lemma update_spec : forall s i p, Inv s -> valid_index i -> t_find (lst (its s)) i <> None ->
  exists s', s_update s i p = SOk s' /\ Inv s' /\ lst (its s') = t_update (lst (its s)) i p.
Proof.
  intros s i p [S R N M SH] V F. unfold s_update. unfold shape in SH. unfold valid_index in V.
  assert (K : forall it, lst it = t_update (lst (its s)) i p -> shape (with_items s it) -> Inv (with_items s it)).
  { intros it E SH'. pose proof (update_fst (lst (its s)) i p) as MF. constructor; cbn [with_items its num maxi]; try rewrite E.
    - apply (sorted_map_fst (lst (its s))); [symmetry; exact MF | exact S].
    - unfold in_range. rewrite forall_map_fst, MF. rewrite <- forall_map_fst. exact R.
    - rewrite N. f_equal. rewrite <- (map_length fst (t_update _ _ _)), MF, map_length. reflexivity.
    - rewrite M. apply last_map_fst. symmetry. exact MF.
    - exact SH'. }
  destruct (its s) as [[l|]|t] eqn:E; cbn [lst] in *.
  - destruct SH as (L & C & MC). destruct (t_find (entries 0 l) i) as [q|] eqn:FE; [|congruence].
    rewrite entries_find0 in FE by lia. destruct (nth_error l (Z.to_nat i)) as [x|] eqn:NE; [|discriminate]. subst x.
    assert (LT : (Z.to_nat i < length l)%nat) by (apply nth_error_Some; congruence).
    cbn [write_slot]. rewrite (proj2 (Z.ltb_lt i (Z.of_nat (length l)))) by lia. cbn [sbind].
    assert (EI : entries 0 (set_nth l (Z.to_nat i) (Some p)) = t_update (entries 0 l) i p).
    { erewrite entries_update by exact NE. rewrite Z2Nat.id, Z.add_0_l by lia. reflexivity. }
    eexists. split; [reflexivity|]. split; [|exact EI]. apply K; [exact EI|]. unfold shape, with_items. cbn [its cap maxi]. rewrite set_nth_length. lia.
  - cbn in F. congruence.
  - destruct (t_find t i) eqn:FE; [|congruence]. eexists. split; [reflexivity|]. split; [|reflexivity]. apply K; [reflexivity | exact Logic.I].
Qed.

(** removing an index *)
Lemma remove_range : forall t i, sorted t -> in_range t -> in_range (t_remove t i).
Proof. intros t i S R. unfold in_range in *. rewrite Forall_forall in *. intros e He. apply remove_in in He; [|exact S]. apply R. tauto. Qed.
Lemma remove_last_other : forall t i, sorted t -> in_range t -> t_find t i <> None -> i <> last_idx t -> last_idx (t_remove t i) = last_idx t.
Proof.
  intros t i S R F N. destruct t as [|a t]; [reflexivity|]. apply last_idx_is; [apply remove_sorted; exact S | apply remove_range; assumption | | |].
  - intros e He. apply remove_in in He; [|exact S]. apply last_idx_ge; tauto.
  - intro E. destruct (last_idx_in (a :: t)) as [p P]; [discriminate|].
    assert (H : In (last_idx (a :: t), p) (t_remove (a :: t) i)) by (apply remove_in; [exact S|]; split; [exact P | cbn [fst]; congruence]).
    rewrite E in H. destruct H.
  - intros _. destruct (last_idx_in (a :: t)) as [p P]; [discriminate|]. exists p. apply remove_in; [exact S|]. split; [exact P | cbn [fst]; congruence].
Qed.

Lemma update_max_spec : forall it m, (match it with Vec (Some l) => (Z.to_nat m < length l)%nat | Vec None => m = 0 | Tree _ => True end) ->
  0 <= m -> (forall e, In e (lst it) -> fst e <= m) -> in_range (lst it) -> update_max it m = SOk (last_idx (lst it)).
Proof.
  intros it m SH P U R. destruct it as [[l|]|t]; cbn [update_max lst] in *.
  - apply scan_down_spec; [exact SH| |exact R]. intros e He. specialize (U e He). lia.
  - subst m. reflexivity.
  - reflexivity.
Qed.

Lemma delete_spec : forall s i, Inv s -> valid_index i -> t_find (lst (its s)) i <> None ->
  exists s', s_delete s i = SOk s' /\ Inv s' /\ lst (its s') = t_remove (lst (its s)) i.
Proof.
  intros s i I V F. pose proof (inv_le_max s I) as U. pose proof (inv_max_range s I) as MR. destruct I as [S R N M SH]. unfold valid_index in V.
  set (t' := t_remove (lst (its s)) i).
  pose proof (remove_length _ _ F) as LEN. fold t' in LEN. pose proof (count_limit _ S R) as CL. unfold limit in CL.
  assert (NU : u32 (num s - 1) = Z.of_nat (length t')) by (rewrite u32_small by lia; lia).
  assert (S' : sorted t') by (apply remove_sorted; exact S). assert (R' : in_range t') by (apply remove_range; assumption).
  assert (U' : forall e, In e t' -> fst e <= maxi s) by (intros e He; apply remove_in in He; [apply U; tauto | exact S]).
  assert (IT : exists it, (match its s with
             | Tree t => match t_find t i with None => SUB | Some _ => SOk (Tree (t_remove t i)) end
             | Vec v => write_slot v i None
             end) = SOk it /\ lst it = t' /\ (match it with Vec (Some l) => Z.of_nat (length l) = cap s /\ 0 < cap s <= limit /\ maxi s < cap s | Vec None => False | Tree _ => True end)).
  { unfold shape in SH. unfold t' in *. destruct (its s) as [[l|]|t] eqn:E; cbn [lst] in *.
    - destruct (t_find (entries 0 l) i) as [q|] eqn:FE; [|congruence].
      rewrite entries_find0 in FE by lia. destruct (nth_error l (Z.to_nat i)) as [x|] eqn:NE; [|discriminate]. subst x.
      assert (LT : (Z.to_nat i < length l)%nat) by (apply nth_error_Some; congruence).
      cbn [write_slot]. rewrite (proj2 (Z.ltb_lt i (Z.of_nat (length l)))) by lia. eexists. split; [reflexivity|]. cbn [lst]. split.
      + erewrite entries_remove by exact NE. rewrite Z2Nat.id, Z.add_0_l by lia. reflexivity.
      + rewrite set_nth_length. exact SH.
    - cbn in F. congruence.
    - destruct (t_find t i) eqn:FE; [|congruence]. eexists. split; [reflexivity|]. split; [reflexivity | exact Logic.I]. }
  destruct IT as (it & EIT & LIT & SIT).
  unfold s_delete. rewrite EIT. cbn [sbind].
  assert (EM : (if i =? maxi s then update_max it (maxi s) else SOk (maxi s)) = SOk (last_idx t')).
  { destruct (Z.eqb_spec i (maxi s)) as [EQ | NEQ].
    - rewrite <- LIT. apply update_max_spec; [|lia | rewrite LIT; exact U' | rewrite LIT; exact R'].
      destruct it as [[l|]|t]; [|contradiction | exact Logic.I]. lia.
    - f_equal. unfold t'. rewrite remove_last_other; [exact M | exact S | exact R | exact F | congruence]. }
  rewrite EM. cbn [sbind]. rewrite NU.
  pose proof (last_idx_range _ R') as LR.
  destruct (fixup_spec {| its := it; num := num s; maxi := last_idx t'; cap := cap s |} (Z.of_nat (length t')) (last_idx t')) as (s1 & E1 & L1 & N1 & M1 & SH1 & NV);
    cbn [its maxi cap num].
  - rewrite LIT. exact S'.
  - rewrite LIT. exact R'.
  - unfold shape. cbn [its cap maxi]. destruct it as [[l|]|t]; [|contradiction | exact Logic.I].
    assert (last_idx t' <= maxi s); [|lia]. destruct t' as [|a t''] eqn:ET; [unfold last_idx; cbn; lia|].
    destruct (last_idx_in (a :: t'')) as [p P]; [discriminate|]. apply (U' _ P).
  - rewrite LIT. intros e He. apply last_idx_ge; assumption.
  - lia.
  - lia.
  - intro ET. rewrite ET in LIT. cbn [lst] in LIT. rewrite <- LIT. cbn [length Z.of_nat]. change (u32 (0 * 3)) with 0. unfold last_idx. cbn. lia.
  - exists s1. split; [exact E1|]. cbn [its] in L1. rewrite LIT in L1. split; [|exact L1].
    constructor; rewrite ?L1; [exact S' | exact R' | exact N1 | exact M1 | exact SH1].
Qed.

(** ** histories *)
Lemma empty_inv : Inv empty_store.
Proof. constructor; cbn; [constructor | constructor | reflexivity | reflexivity | split; reflexivity]. Qed.

Lemma step_spec : forall s o, Inv s -> valid_index (op_index o) ->
  (s_step s o = SUB /\ its s = Tree [] /\ exists i p, o = Put i p /\ i < 3) \/
  exists s', s_step s o = SOk s' /\ Inv s' /\
    (forall j, t_find (lst (its s')) j = spec_step (t_find (lst (its s))) o j).
Proof.
  intros s o I V. unfold s_step. rewrite lookup_spec by assumption. cbn [sbind]. pose proof (inv_sorted s I) as S.
  destruct o as [i p | i]; cbn [op_index spec_step] in *.
  - destruct (t_find (lst (its s)) i) as [q|] eqn:F.
    + right. destruct (update_spec s i p I V ltac:(congruence)) as (s' & E & I' & L). exists s'. split; [exact E|]. split; [exact I'|].
      intro j. rewrite L, update_find by congruence. reflexivity.
    + assert (D : (its s = Tree [] /\ i < 3) \/ ~ (its s = Tree [] /\ i < 3)).
      { destruct (its s) as [v|[|e t]]; [right; intros [H _]; discriminate| |right; intros [H _]; discriminate].
        destruct (Z_lt_dec i 3); [left; auto | right; tauto]. }
      destruct D as [[E L] | NB].
      * left. split; [apply add_crash; [exact I | exact E | unfold valid_index in V; lia]|]. split; [exact E|]. exists i, p. auto.
      * right. destruct (add_spec s i p I V F NB) as (s' & E & I' & L). exists s'. split; [exact E|]. split; [exact I'|].
        intro j. rewrite L, insert_find by exact F. reflexivity.
  - right. destruct (t_find (lst (its s)) i) as [q|] eqn:F.
    + destruct (delete_spec s i I V ltac:(congruence)) as (s' & E & I' & L). exists s'. split; [exact E|]. split; [exact I'|].
      intro j. rewrite L, remove_find by exact S. reflexivity.
    + exists s. split; [reflexivity|]. split; [exact I|]. intro j. unfold set_map. destruct (Z.eqb_spec j i) as [-> | N]; [exact F | reflexivity].
Qed.

Lemma run_spec : forall h s, Inv s -> Forall (fun o => valid_index (op_index o)) h ->
  (s_run s h = SUB /\ exists h1 i p h2 s1, h = h1 ++ Put i p :: h2 /\ s_run s h1 = SOk s1 /\ its s1 = Tree [] /\ i < 3) \/
  exists s', s_run s h = SOk s' /\ Inv s' /\
    (forall j, t_find (lst (its s')) j = fold_left spec_step h (t_find (lst (its s))) j).
Proof.
  induction h as [|o h IH]; intros s I V.
  - right. exists s. split; [reflexivity|]. split; [exact I | reflexivity].
  - inversion V as [|? ? V1 V2]; subst. cbn [s_run]. destruct (step_spec s o I V1) as [(E & ET & i & p & -> & L) | (s' & E & I' & F)].
    + left. rewrite E. split; [reflexivity|]. exists [], i, p, h, s. auto.
    + rewrite E. cbn [sbind]. destruct (IH s' I' V2) as [(E2 & h1 & i & p & h2 & s1 & -> & E3 & ET & L) | (s2 & E2 & I2 & F2)].
      * left. split; [exact E2|]. exists (o :: h1), i, p, h2, s1. split; [reflexivity|]. cbn [s_run]. rewrite E. auto.
      * right. exists s2. split; [exact E2|]. split; [exact I2|]. intro j. rewrite F2. cbn [fold_left].
        assert (EXT : forall h (m m' : imap), (forall j, m j = m' j) -> forall j, fold_left spec_step h m j = fold_left spec_step h m' j).
        { clear. induction h as [|o h IH]; intros m m' E j; [apply E|]. cbn [fold_left]. apply IH. intro k. destruct o; cbn [spec_step]; unfold set_map; destruct (k =? i); auto. }
        apply EXT. exact F.
Qed.

(** ** truncation *)
Definition deletable (new_len : Z) (t : tree) : Prop := Forall (fun e => new_len <= fst e -> cf (snd e) = true) t.
(** what is kept: everything below the limit *)
Definition below (m : Z) (t : tree) : tree := filter (fun e => fst e <? m) t.
(** the highest index that stays because it is not configurable *)
Fixpoint blocker (new_len : Z) (t : tree) : option Z :=
  match t with
  | [] => None
  | (i, p) :: r => match blocker new_len r with Some b => Some b | None => if (new_len <=? i) && negb (cf p) then Some i else None end
  end.
Definition cut_to (new_len : Z) (t : tree) : tree :=
  match blocker new_len t with Some b => below (b + 1) t | None => below new_len t end.

Lemma blocker_app : forall n t u, blocker n (t ++ u) = match blocker n u with Some b => Some b | None => blocker n t end.
Proof. intros n t u. induction t as [|[i p] t IH]; cbn [app blocker]; [destruct (blocker n u); reflexivity|]. rewrite IH. destruct (blocker n u); reflexivity. Qed.
Lemma blocker_none : forall n t, Forall (fun e => fst e < n) t -> blocker n t = None.
Proof. intros n t H. induction H as [|[i p] t H F IH]; [reflexivity|]. cbn [blocker fst] in *. rewrite IH. rewrite (proj2 (Z.leb_gt n i)) by lia. reflexivity. Qed.
Lemma below_all : forall m t, Forall (fun e => fst e < m) t -> below m t = t.
Proof. intros m t H. induction H as [|[i p] t H F IH]; [reflexivity|]. cbn [below filter fst] in *. rewrite (proj2 (Z.ltb_lt i m)) by exact H. fold (below m t). rewrite IH. reflexivity. Qed.
Lemma sorted_app_last : forall t e, sorted (t ++ [e]) -> sorted t /\ Forall (fun x => fst x < fst e) t.
Proof.
  induction t as [|a t IH]; intros e S; [split; constructor|]. cbn [app] in S. apply sorted_cons in S. destruct S as [S A].
  destruct (IH e S) as [S1 F1]. apply Forall_app in A. destruct A as [A1 A2]. inversion A2; subst. split; [apply sorted_cons; split; assumption | constructor; assumption].
Qed.

Lemma filter_len : forall {A} (f : A -> bool) l, (length (filter f l) <= length l)%nat.
Proof. intros A f l. induction l as [|a l IH]; [apply le_n|]. cbn [filter]. destruct (f a); cbn [length]; lia. Qed.
Lemma cut_len : forall n t, (length (cut_to n t) <= length t)%nat.
Proof. intros n t. unfold cut_to. destruct (blocker n t); apply filter_len. Qed.
Lemma cut_low : forall n t, Forall (fun e => fst e < n) t -> cut_to n t = t /\ blocker n t = None.
Proof. intros n t H. unfold cut_to. rewrite blocker_none by exact H. split; [apply below_all; exact H | reflexivity]. Qed.
Lemma blocker_lt : forall n t i b, Forall (fun x => fst x < i) t -> blocker n t = Some b -> b < i.
Proof.
  intros n t i b F B. induction F as [|[j q] t H F IH]; [discriminate|]. cbn [blocker] in B. destruct (blocker n t) as [b'|]; [injection B as ->; apply IH; reflexivity|].
  destruct (_ && _); [|discriminate]. injection B as <-. exact H.
Qed.
Lemma cut_last_conf : forall n t i p, sorted (t ++ [(i, p)]) -> n <= i -> cf p = true ->
  cut_to n (t ++ [(i, p)]) = cut_to n t /\ blocker n (t ++ [(i, p)]) = blocker n t.
Proof.
  intros n t i p S L C. destruct (sorted_app_last _ _ S) as [S1 F1]. cbn [fst] in F1. unfold cut_to. rewrite !blocker_app. cbn [blocker].
  rewrite C, andb_false_r. split; [|reflexivity].
  assert (BB : forall m, m <= i -> below m (t ++ [(i, p)]) = below m t).
  { intros m Hm. unfold below. rewrite filter_app. cbn [filter fst]. rewrite (proj2 (Z.ltb_ge i m)) by lia. apply app_nil_r. }
  destruct (blocker n t) as [b|] eqn:B; [|apply BB; exact L]. apply BB. pose proof (blocker_lt _ _ _ _ F1 B). lia.
Qed.
Lemma cut_last_block : forall n t i p, sorted (t ++ [(i, p)]) -> n <= i -> cf p = false ->
  cut_to n (t ++ [(i, p)]) = t ++ [(i, p)] /\ blocker n (t ++ [(i, p)]) = Some i.
Proof.
  intros n t i p S L C. destruct (sorted_app_last _ _ S) as [S1 F1]. cbn [fst] in F1. unfold cut_to. rewrite !blocker_app. cbn [blocker].
  rewrite C, (proj2 (Z.leb_le n i)) by lia. cbn [negb andb]. split; [|reflexivity].
  apply below_all. apply Forall_app. split; [eapply Forall_impl; [|exact F1]; cbn; intros; lia | constructor; [cbn; lia | constructor]].
Qed.

Lemma t_cut_spec : forall t fuel n k, sorted t -> (length t < fuel)%nat ->
  t_cut fuel t n k = SOk (cut_to n t, k + Z.of_nat (length t - length (cut_to n t)), blocker n t).
Proof.
  intro t. induction t as [|e t IH] using rev_ind; intros fuel n k S F.
  - destruct fuel; [cbn in F; lia|]. cbn. f_equal. f_equal. f_equal. lia.
  - destruct fuel as [|fuel]; [rewrite app_length in F; cbn in F; lia|]. cbn [t_cut]. rewrite t_last_app. destruct e as [i p].
    destruct (sorted_app_last _ _ S) as [S1 F1]. cbn [fst] in F1.
    destruct (Z.ltb_spec i n) as [L | L].
    + destruct (cut_low n (t ++ [(i, p)])) as [-> ->].
      { apply Forall_app. split; [eapply Forall_impl; [|exact F1]; cbn; intros; lia | constructor; [cbn; lia | constructor]]. }
      f_equal. f_equal. f_equal. lia.
    + destruct (cf p) eqn:CF; cbn [negb].
      * destruct (cut_last_conf n t i p S L CF) as [-> ->]. rewrite removelast_last. rewrite app_length in F |- *. cbn [length] in *.
        rewrite IH by (try exact S1; lia). pose proof (cut_len n t). f_equal. f_equal. f_equal. lia.
      * destruct (cut_last_block n t i p S L CF) as [-> ->]. f_equal. f_equal. f_equal. lia.
Qed.

Lemma set_nth_back : forall l n p, nth_error l n = Some (Some p) -> set_nth (set_nth l n None) n (Some p) = l.
Proof. induction l as [|a l IH]; intros n p H; [reflexivity|]. destruct n; cbn in *; [injection H as ->; reflexivity|]. rewrite IH by exact H. reflexivity. Qed.
Lemma entries_last : forall l m p, nth_error l m = Some (Some p) -> (forall e, In e (entries 0 l) -> fst e <= Z.of_nat m) ->
  entries 0 l = entries 0 (set_nth l m None) ++ [(Z.of_nat m, p)].
Proof.
  intros l m p H U. assert (LT : (m < length l)%nat) by (apply nth_error_Some; congruence).
  assert (NN : nth_error (set_nth l m None) m = Some None) by (apply set_nth_same; exact LT).
  rewrite <- (set_nth_back l m p H) at 1. rewrite entries_insert by exact NN. rewrite Z.add_0_l. apply insert_greatest.
  apply Forall_forall. intros e He. erewrite entries_remove in He by exact H. rewrite Z.add_0_l in He. apply remove_in in He; [|apply entries_sorted].
  specialize (U e (proj1 He)). lia.
Qed.
Lemma v_cut_spec : forall m l n k, (m < length l)%nat -> (forall e, In e (entries 0 l) -> fst e <= Z.of_nat m) -> 0 <= n ->
  exists l', v_cut l m n k = SOk (l', k + Z.of_nat (length (entries 0 l) - length (cut_to n (entries 0 l))), blocker n (entries 0 l)) /\
    entries 0 l' = cut_to n (entries 0 l) /\ length l' = length l.
Proof.
  assert (LOW : forall l n k, Forall (fun e => fst e < n) (entries 0 l) ->
    exists l', SOk (l, k, None) = SOk (l', k + Z.of_nat (length (entries 0 l) - length (cut_to n (entries 0 l))), blocker n (entries 0 l)) /\
      entries 0 l' = cut_to n (entries 0 l) /\ length l' = length l).
  { intros l n k H. destruct (cut_low n _ H) as [E1 E2]. rewrite E1, E2. exists l. split; [|split; reflexivity]. f_equal. f_equal. f_equal. lia. }
  assert (BLK : forall l m n k p, nth_error l m = Some (Some p) -> (forall e, In e (entries 0 l) -> fst e <= Z.of_nat m) -> n <= Z.of_nat m -> cf p = false ->
    exists l', SOk (l, k, Some (Z.of_nat m)) = SOk (l', k + Z.of_nat (length (entries 0 l) - length (cut_to n (entries 0 l))), blocker n (entries 0 l)) /\
      entries 0 l' = cut_to n (entries 0 l) /\ length l' = length l).
  { intros l m n k p H U L C. pose proof (entries_last l m p H U) as E. pose proof (entries_sorted l 0) as S. rewrite E in S.
    destruct (cut_last_block n _ _ _ S L C) as [E1 E2]. rewrite <- E in E1, E2. rewrite E1, E2. exists l. split; [|split; reflexivity]. f_equal. f_equal. f_equal. lia. }
  induction m as [|m IH]; intros l n k LT U N0.
  - cbn [v_cut]. destruct (Z.ltb_spec (Z.of_nat 0) n) as [L | L].
    + apply LOW. apply Forall_forall. intros e He. specialize (U e He). lia.
    + destruct (nth_error l 0) as [[p|]|] eqn:E; [| |apply nth_error_None in E; lia].
      * destruct (cf p) eqn:CF; cbn [negb]; [|eapply BLK; eassumption].
        pose proof (entries_last l 0 p E U) as EL. pose proof (entries_sorted l 0) as S. rewrite EL in S.
        destruct (cut_last_conf n _ _ _ S L CF) as [E1 E2]. rewrite <- EL in E1, E2. rewrite E1, E2.
        assert (E0 : entries 0 (set_nth l 0 None) = []).
        { destruct (entries 0 (set_nth l 0 None)) as [|e t] eqn:E0; [reflexivity|]. exfalso. destruct (sorted_app_last _ _ S) as [_ F]. inversion F as [|? ? F1 F2]; subst.
          pose proof (entries_ge (set_nth l 0 None) 0) as G. rewrite E0 in G. inversion G; subst. cbn [fst] in *. lia. }
        rewrite E0 in EL |- *. exists (set_nth l 0 None). rewrite EL. cbn [app length]. split; [reflexivity|]. split; [exact E0 | apply set_nth_length].
      * assert (E0 : entries 0 l = []).
        { destruct (entries 0 l) as [|[i q] t] eqn:E0; [reflexivity|]. exfalso. specialize (U (i, q) (or_introl eq_refl)). cbn [fst] in U.
          pose proof (entries_ge l 0) as G. rewrite E0 in G. inversion G as [|? ? G1 G2]; subst. cbn [fst] in G1. assert (i = 0) by lia. subst.
          pose proof (entries_find0 l 0 ltac:(lia)) as F. rewrite E0 in F. change (Z.to_nat 0) with O in F. rewrite E in F. discriminate. }
        apply LOW. rewrite E0. constructor.
  - cbn [v_cut]. destruct (Z.ltb_spec (Z.of_nat (S m)) n) as [L | L].
    + apply LOW. apply Forall_forall. intros e He. specialize (U e He). lia.
    + destruct (nth_error l (S m)) as [[p|]|] eqn:E; [| |apply nth_error_None in E; lia].
      * destruct (cf p) eqn:CF; cbn [negb]; [|eapply BLK; eassumption].
        pose proof (entries_last l (S m) p E U) as EL. pose proof (entries_sorted l 0) as S. rewrite EL in S.
        destruct (cut_last_conf n _ _ _ S L CF) as [E1 E2]. rewrite <- EL in E1, E2. rewrite E1, E2.
        destruct (sorted_app_last _ _ S) as [_ F].
        destruct (IH (set_nth l (Datatypes.S m) None) n (k + 1)) as (l' & V1 & V2 & V3).
        -- rewrite set_nth_length. lia.
        -- intros e He. rewrite Forall_forall in F. specialize (F e He). cbn [fst] in F. lia.
        -- exact N0.
        -- exists l'. rewrite V1, V3. split; [|split; [exact V2 | apply set_nth_length]]. rewrite EL, app_length. cbn [length].
           pose proof (cut_len n (entries 0 (set_nth l (Datatypes.S m) None))). f_equal. f_equal. f_equal. lia.
      * apply IH; [lia| |exact N0]. intros e He. specialize (U e He).
        assert (fst e <> Z.of_nat (S m)); [|lia]. intro EQ. destruct e as [i q]. cbn [fst] in EQ. subst i.
        apply (in_find _ _ _ (entries_sorted l 0)) in He. rewrite entries_find0 in He by lia. rewrite Nat2Z.id, E in He. discriminate.
Qed.

Lemma filter_sorted : forall f t, sorted t -> sorted (filter f t).
Proof.
  intros f t S. induction t as [|e t IH]; [exact S|]. apply sorted_cons in S. destruct S as [S A]. cbn [filter]. destruct (f e); [|apply IH; exact S].
  apply sorted_cons. split; [apply IH; exact S|]. rewrite Forall_forall in *. intros x Hx. apply filter_In in Hx. apply A. tauto.
Qed.
Lemma cut_in : forall n t e, In e (cut_to n t) -> In e t.
Proof. intros n t e H. unfold cut_to, below in H. destruct (blocker n t); apply filter_In in H; tauto. Qed.

Lemma cut_spec : forall s n, Inv s -> 0 <= n ->
  exists s', s_cut s n = SOk (s', blocker n (lst (its s))) /\ Inv s' /\ lst (its s') = cut_to n (lst (its s)).
Proof.
  intros s n I N0. pose proof (inv_le_max s I) as U. pose proof (inv_max_range s I) as MR. destruct I as [S R N M SH].
  set (t' := cut_to n (lst (its s))).
  pose proof (cut_len n (lst (its s))) as LEN. fold t' in LEN. pose proof (count_limit _ S R) as CL. unfold limit in CL.
  assert (S' : sorted t') by (unfold t', cut_to; destruct (blocker n (lst (its s))); apply filter_sorted; exact S).
  assert (IN : forall e, In e t' -> In e (lst (its s))) by (intros e; apply cut_in).
  assert (R' : in_range t').
  { unfold in_range in *. rewrite Forall_forall in *. intros e He. apply R, IN. exact He. }
  assert (U' : forall e, In e t' -> fst e <= maxi s) by (intros e He; apply U, IN, He).
  assert (IT : exists it k, (match its s with
          | Tree t => do x <- t_cut (Datatypes.S (length t)) t n 0; let '(t', n, b) := x in SOk (Tree t', n, b)
          | Vec None => SOk (Vec None, 0, None)
          | Vec (Some l) => do x <- v_cut l (Z.to_nat (maxi s)) n 0; let '(l', n, b) := x in SOk (Vec (Some l'), n, b)
          end) = SOk (it, k, blocker n (lst (its s))) /\ lst it = t' /\ k = Z.of_nat (length (lst (its s)) - length t') /\
     (match it with Vec (Some l) => Z.of_nat (length l) = cap s /\ 0 < cap s <= limit /\ maxi s < cap s | Vec None => cap s = 0 /\ maxi s = 0 | Tree _ => True end)).
  { unfold shape in SH. unfold t' in *. destruct (its s) as [[l|]|t] eqn:E; cbn [lst] in *.
    - destruct (v_cut_spec (Z.to_nat (maxi s)) l n 0) as (l' & V1 & V2 & V3); [lia | intros e He; specialize (U e He); lia | exact N0|].
      rewrite V1. cbn [sbind]. eexists _, _. split; [reflexivity|]. cbn [lst]. split; [exact V2|]. split; [lia|]. rewrite V3. exact SH.
    - eexists _, _. split; [reflexivity|]. split; [reflexivity|]. split; [reflexivity | exact SH].
    - rewrite t_cut_spec by (try exact S; lia). cbn [sbind]. eexists _, _. split; [reflexivity|]. split; [reflexivity|]. split; [lia | exact Logic.I]. }
  destruct IT as (it & k & EIT & LIT & EK & SIT).
  unfold s_cut. rewrite EIT. cbn [sbind].
  rewrite (update_max_spec it (maxi s)); [| |lia | rewrite LIT; exact U' | rewrite LIT; exact R'].
  2: { destruct it as [[l|]|t]; [lia | tauto | exact Logic.I]. }
  cbn [sbind]. rewrite LIT.
  assert (NU : u32 (num s - k) = Z.of_nat (length t')) by (rewrite u32_small by lia; lia). rewrite NU.
  pose proof (last_idx_range _ R') as LR.
  assert (LM : last_idx t' <= maxi s).
  { destruct t' as [|a t''] eqn:ET; [unfold last_idx; cbn; lia|]. destruct (last_idx_in (a :: t'')) as [p P]; [discriminate|]. apply (U' _ P). }
  destruct (fixup_spec {| its := it; num := num s; maxi := last_idx t'; cap := cap s |} (Z.of_nat (length t')) (last_idx t')) as (s1 & E1 & L1 & N1 & M1 & SH1 & NV);
    cbn [its maxi cap num].
  - rewrite LIT. exact S'.
  - rewrite LIT. exact R'.
  - unfold shape. cbn [its cap maxi]. destruct it as [[l|]|t]; [lia | | exact Logic.I]. cbn [lst] in LIT. rewrite <- LIT. split; [tauto | reflexivity].
  - rewrite LIT. intros e He. apply last_idx_ge; assumption.
  - lia.
  - lia.
  - intro ET. rewrite ET in LIT. cbn [lst] in LIT. rewrite <- LIT. cbn [length Z.of_nat]. change (u32 (0 * 3)) with 0. unfold last_idx. cbn. lia.
  - exists s1. rewrite E1. cbn [sbind]. split; [reflexivity|]. cbn [its] in L1. rewrite LIT in L1. split; [|exact L1].
    constructor; rewrite ?L1; [exact S' | exact R' | exact N1 | exact M1 | exact SH1].
Qed.
