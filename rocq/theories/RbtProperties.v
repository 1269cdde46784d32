From Coq Require Import List Bool Arith ZArith Lia Sorted.
Import ListNotations.
From Verif Require StoreModel.
From Verif Require Import RbtModel RbtSpec RbtProofs RbtTreeProofs RbtOpsProofs.

(** C12: every history of insertions and removals runs to the end, never reads freed or
    foreign memory, and leaves a red/black search tree with exactly the entries that were
    inserted and not removed. *)
Theorem C12_history : forall ops l fuel idx0, history ops l -> 2 * Nat.log2 (S (length ops)) + 2 <= fuel ->
  exists s, run fuel (empty_heap, idx0) ops = Some s /\ contents s l.
Proof.
  intros ops l fuel idx0 H F. destruct (history_inv ops l fuel idx0 H F) as (s & R & t & S & B & O & Q & M). exists s. split; [exact R|]. exists t. split; [exact S|]. split; [exact B|]. split; [exact O|]. split; [exact Q|]. split; [exact (inv_fuel s l t Q B) | exact M].
Qed.
Print Assumptions C12_history.
Lemma contents_inv : forall s l, contents s l -> inv s l.
Proof. intros s l (t & S & B & O & Q & _ & M). exists t. auto. Qed.

(** The entries are in ascending order and are what set operations say *)
Theorem C12_order : forall ops l, history ops l -> StronglySorted Z.lt (keys l) /\ NoDup (nodes l).
Proof.
  intros ops l H. destruct (C12_history ops l _ (fun _ => 0%Z) H (Nat.le_refl _)) as (s & _ & C). split; [exact (inv_sorted s l (contents_inv s l C))|]. destruct C as (t & (_ & _ & N & _) & _ & _ & <- & _). unfold nodes. rewrite map_map. cbn. rewrite map_id. exact N.
Qed.
Print Assumptions C12_order.
Theorem C12_put : forall l i n e, In e (put l i n) <-> e = (i, n) \/ In e l.
Proof.
  induction l as [|[j b] l IH]; intros i n e; cbn [put]; [cbn; intuition|]. destruct (i <? j)%Z; cbn [In]; [intuition|]. rewrite IH. intuition.
Qed.
Theorem C12_drop : forall l i e, In e (drop l i) <-> In e l /\ fst e <> i.
Proof. intros l i e. unfold drop. rewrite filter_In. destruct (Z.eqb_spec (fst e) i) as [-> | N]; cbn [negb]; intuition. Qed.
Print Assumptions C12_put.
Print Assumptions C12_drop.

(** Look up finds every entry and nothing else, in logarithmically many steps *)
Theorem C12_lookup : forall s l i fuel, contents s l -> 2 * Nat.log2 (S (length l)) < fuel ->
  (forall n, In (i, n) l -> lookup fuel (fst s) (snd s) i = Some n) /\ (~ In i (keys l) -> lookup fuel (fst s) (snd s) i = Some 0).
Proof.
  intros s l i fuel C F. apply contents_inv in C. rewrite (inv_lookup s l i fuel C F). split; intros; f_equal; [apply get_in; [exact (inv_sorted s l C) | assumption] | apply get_none; assumption].
Qed.
Print Assumptions C12_lookup.
(** Stepping: forward from the first node visits all nodes in order; next and prev go to the
    neighbours; 0 (NULL) marks the ends *)
Theorem C12_visit : forall s l fuel steps, contents s l -> 2 * Nat.log2 (S (length l)) < fuel -> length l <= steps -> visit_all steps fuel (fst s) = Some (nodes l).
Proof. intros s l fuel steps C. exact (inv_visit s l fuel steps (contents_inv s l C)). Qed.
Print Assumptions C12_visit.
Theorem C12_neighbours : forall s l X i n Y fuel, contents s l -> 2 * Nat.log2 (S (length l)) < fuel -> l = X ++ (i, n) :: Y ->
  rbt_next fuel (fst s) n = Some (hd 0 (nodes Y)) /\ rbt_prev fuel (fst s) n = Some (last (nodes X) 0).
Proof. intros s l X i n Y fuel C. exact (inv_next s l X i n Y fuel (contents_inv s l C)). Qed.
Print Assumptions C12_neighbours.
Theorem C12_ends : forall s l fuel, contents s l -> 2 * Nat.log2 (S (length l)) < fuel ->
  rbt_first fuel (fst s) = Some (hd 0 (nodes l)) /\ rbt_last fuel (fst s) = Some (last (nodes l) 0).
Proof. intros s l fuel C. exact (inv_ends s l fuel (contents_inv s l C)). Qed.
Print Assumptions C12_ends.

(** One more operation on any reachable tree; all other memory stays as it was *)
Theorem C12_insert_frame : forall fuel h idx t n, stores h t -> balanced t -> ordered idx t -> n <> 0 -> ~ In n (elems t) -> ~ In (idx n) (map idx (elems t)) -> S (height t) < fuel ->
  exists h' t' X Y, add fuel h idx n = Some h' /\ stores h' t' /\ balanced t' /\ elems t = X ++ Y /\ elems t' = X ++ n :: Y /\ (forall x, In x X -> (idx x < idx n)%Z) /\ (forall x, In x Y -> (idx n < idx x)%Z) /\
    forall y, y <> n -> ~ In y (elems t) -> mem h' y = mem h y.
Proof. exact add_spec. Qed.
Print Assumptions C12_insert_frame.
Theorem C12_remove_frame : forall fuel h idx t i, stores h t -> balanced t -> ordered idx t -> In i (map idx (elems t)) -> height t < fuel ->
  exists h' t' X n Y, delete fuel h idx i = Some h' /\ stores h' t' /\ balanced t' /\ elems t = X ++ n :: Y /\ idx n = i /\ elems t' = X ++ Y /\ mem h' n = None /\
    forall y, ~ In y (elems t) -> mem h' y = mem h y.
Proof. exact delete_spec. Qed.
Print Assumptions C12_remove_frame.
Theorem C12_height : forall t, balanced t -> height t <= 2 * Nat.log2 (S (length (elems t))).
Proof. exact height_log. Qed.
Print Assumptions C12_height.

(** The list with which StoreModel represents the tree: its operations are those of the tree.
    [pv] gives the property stored in a node. *)
Definition as_store (pv : nat -> StoreModel.prop) (l : list (Z * nat)) : StoreModel.tree := map (fun e => (fst e, pv (snd e))) l.
Theorem C12_store_find : forall s l i fuel pv, contents s l -> 2 * Nat.log2 (S (length l)) < fuel ->
  exists a, lookup fuel (fst s) (snd s) i = Some a /\ StoreModel.t_find (as_store pv l) i = if a =? 0 then None else Some (pv a).
Proof.
  intros s l i fuel pv C F. destruct C as (t & S & B & O & Q & HL & M). assert (C : contents s l) by (exists t; auto 8). exists (get l i). split; [exact (inv_lookup s l i fuel (contents_inv s l C) F)|]. change (as_store pv l) with (abs pv l). rewrite abs_find. unfold get.
  destruct (find (fun e => (fst e =? i)%Z) l) as [e|] eqn:FE; [|reflexivity]. apply find_some in FE. destruct FE as (FE & _). destruct (Nat.eqb_spec (snd e) 0) as [Z | Z]; [|reflexivity]. exfalso.
  destruct S as (_ & _ & _ & NZ). apply NZ. rewrite <- Q in FE. apply in_map_iff in FE. destruct FE as (a & <- & FE). cbn in Z. subst a. exact FE.
Qed.
Print Assumptions C12_store_find.
Theorem C12_store_insert : forall ops l n i p fuel idx0 pv, history ops l -> n <> 0 -> ~ In n (nodes l) -> ~ In i (keys l) -> 2 * Nat.log2 (S (S (length ops))) + 2 <= fuel ->
  exists s, run fuel (empty_heap, idx0) (ops ++ [Add n i]) = Some s /\ contents s (put l i n) /\ as_store (fun x => if x =? n then p else pv x) (put l i n) = StoreModel.t_insert (as_store pv l) i p.
Proof.
  intros ops l n i p fuel idx0 pv H N NN NK F. destruct (C12_history (ops ++ [Add n i]) (put l i n) fuel idx0) as (s & R & C); [apply h_add; assumption | rewrite app_length; cbn [length]; rewrite Nat.add_1_r; exact F|]. exists s. split; [exact R|]. split; [exact C|]. symmetry. exact (abs_insert pv p n l i NN).
Qed.
Print Assumptions C12_store_insert.
Theorem C12_store_remove : forall ops l i fuel idx0 pv, history ops l -> In i (keys l) -> 2 * Nat.log2 (S (S (length ops))) + 2 <= fuel ->
  exists s, run fuel (empty_heap, idx0) (ops ++ [Del i]) = Some s /\ contents s (drop l i) /\ as_store pv (drop l i) = StoreModel.t_remove (as_store pv l) i.
Proof.
  intros ops l i fuel idx0 pv H K F. destruct (C12_history (ops ++ [Del i]) (drop l i) fuel idx0) as (s & R & C); [apply h_del; assumption | rewrite app_length; cbn [length]; rewrite Nat.add_1_r; exact F|]. exists s. split; [exact R|]. split; [exact C|]. symmetry. apply abs_remove. exact (proj1 (C12_order ops l H)).
Qed.
Print Assumptions C12_store_remove.
Theorem C12_store_last : forall s l fuel pv, contents s l -> 2 * Nat.log2 (S (length l)) < fuel ->
  exists a, rbt_last fuel (fst s) = Some a /\ StoreModel.t_last (as_store pv l) = if a =? 0 then None else Some (snd s a, pv a).
Proof.
  intros s l fuel pv C F. exists (last (nodes l) 0). split; [exact (proj2 (C12_ends s l fuel C F))|]. change (as_store pv l) with (abs pv l). rewrite abs_last. destruct C as (t & (_ & _ & _ & NZ) & _ & _ & Q & _). destruct (rev l) as [|e r] eqn:R.
  - apply (f_equal (@rev _)) in R. rewrite rev_involutive in R. subst l. cbn in R. rewrite R. reflexivity.
  - apply (f_equal (@rev _)) in R. rewrite rev_involutive in R. cbn [rev] in R. assert (I : In e l) by (rewrite R; apply in_or_app; right; left; reflexivity). assert (L : last (nodes l) 0 = snd e) by (rewrite R; unfold nodes; rewrite map_app; cbn [map]; apply last_last).
    rewrite L. rewrite <- Q in I. apply in_map_iff in I. destruct I as (a & <- & I). cbn [fst snd]. destruct (Nat.eqb_spec a 0) as [-> | _]; [contradiction | reflexivity].
Qed.
Print Assumptions C12_store_last.

(** A history with all kinds of rebalancing *)
Fixpoint check (ops : list rop) (l : list (Z * nat)) : option (list (Z * nat)) :=
  match ops with
  | [] => Some l
  | Add n i :: r => if (n =? 0) || existsb (Nat.eqb n) (nodes l) || existsb (Z.eqb i) (keys l) then None else check r (put l i n)
  | Del i :: r => if existsb (Z.eqb i) (keys l) then check r (drop l i) else None
  end.
Lemma check_history : forall r ops l l', history ops l -> check r l = Some l' -> history (ops ++ r) l'.
Proof.
  assert (EN : forall n L, existsb (Nat.eqb n) L = false -> ~ In n L). { intros n L X H. assert (existsb (Nat.eqb n) L = true) by (apply existsb_exists; exists n; split; [exact H | apply Nat.eqb_refl]). congruence. }
  assert (EZ : forall n L, existsb (Z.eqb n) L = true <-> In n L). { intros n L. rewrite existsb_exists. split; [intros (x & X & Y); apply Z.eqb_eq in Y; subst; exact X | intro X; exists n; split; [exact X | apply Z.eqb_refl]]. }
  induction r as [|o r IH]; intros ops l l' H C; cbn [check] in C; [inversion C; subst; rewrite app_nil_r; exact H|].
  change (o :: r) with ([o] ++ r). rewrite app_assoc. destruct o as [n i|i].
  - destruct ((n =? 0) || existsb (Nat.eqb n) (nodes l) || existsb (Z.eqb i) (keys l)) eqn:B; [discriminate|]. apply orb_false_elim in B. destruct B as (B & B3). apply orb_false_elim in B. destruct B as (B1 & B2).
    eapply IH; [|exact C]. apply h_add; [exact H | apply Nat.eqb_neq; exact B1 | apply EN; exact B2 | rewrite <- EZ, B3; discriminate].
  - destruct (existsb (Z.eqb i) (keys l)) eqn:B; [|discriminate]. eapply IH; [|exact C]. apply h_del; [exact H | apply EZ; exact B].
Qed.
Definition demo : list rop :=
  [Add 1 50; Add 2 40; Add 3 30; Add 4 20; Add 5 10; Add 6 60; Add 7 70; Add 8 80; Add 9 90; Add 10 45; Add 11 47; Add 12 42;
   Del 40; Del 50; Del 10; Add 5 55; Del 90; Del 80; Del 20; Del 30; Add 20 65; Del 70]%Z.
Definition demo_left : list (Z * nat) := [(42%Z, 12); (45%Z, 10); (47%Z, 11); (55%Z, 5); (60%Z, 6); (65%Z, 20)].
Example C12_witness : exists s, run 11 (empty_heap, fun _ => 0%Z) demo = Some s /\ contents s demo_left /\ visit_all 6 7 (fst s) = Some [12; 10; 11; 5; 6; 20] /\ lookup 7 (fst s) (snd s) 47 = Some 11.
Proof.
  assert (H : history demo demo_left) by (apply (check_history demo [] []); [constructor | vm_compute; reflexivity]).
  destruct (C12_history demo _ 11 (fun _ => 0%Z) H) as (s & R & C); [vm_compute; repeat constructor|]. exists s. split; [exact R|]. split; [exact C|]. split.
  - apply (C12_visit s _ 7 6 C); vm_compute; repeat constructor.
  - destruct (C12_lookup s _ 47 7 C) as (L & _); [vm_compute; repeat constructor|]. apply L. cbn. tauto.
Qed.
