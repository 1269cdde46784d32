(** Property theorems for sorting (C03). *)
From Coq Require Import List Arith Lia Permutation Sorted ZArith.
Import ListNotations.
From Verif Require Import SortModel SortSpec SortProofs.

(** C03: whatever the comparator does (answers may depend on hidden state [W],
    be inconsistent, or be an exception at any call), sorting stays inside the
    array, terminates, and leaves a permutation of the input. *)
Theorem C03_sort_any_comparator_permutation :
  forall (A W : Type) (func : W -> A -> A -> option cmpres * W) (w : W) (base : list A),
    (exists res w', rjs_sort A W func w base = (SOk res, w') /\ Permutation base res) \/
    (exists res w', rjs_sort A W func w base = (SThrow res, w') /\ Permutation base res).
Proof. exact rjs_sort_permutation. Qed.
Print Assumptions C03_sort_any_comparator_permutation.

(** C03: a consistent comparator gives a sorted, stable permutation. *)
Theorem C03_sort_sorted_stable :
  forall (A W : Type) (func : W -> A -> A -> option cmpres * W)
         (c : A -> A -> cmpres) (le : A -> A -> Prop),
    pure_cmp func c -> weak_order c le ->
    forall (w : W) (base : list A),
    exists res, rjs_sort A W func w base = (SOk res, w) /\
                Permutation base res /\ StronglySorted le res /\ stable_for le base res.
Proof. exact rjs_sort_sorted_stable. Qed.
Print Assumptions C03_sort_sorted_stable.

(** C03: Array.prototype.sort puts the defined values first (sorted, stable),
    then one undefined per undefined element, then the holes. *)
Theorem C03_array_sort_correct :
  forall (V W : Type) (user : W -> V -> V -> option cmpres * W)
         (c : V -> V -> cmpres) (le : V -> V -> Prop),
    pure_cmp user c -> weak_order c le ->
    forall (w : W) (slots : list (option (option V))),
    exists sorted,
      array_sort V W user w slots =
      (ASOk (map (fun v => Some (Some v)) sorted
               ++ repeat (Some None) (undef_count slots)
               ++ repeat None (hole_count slots)), w) /\
      Permutation (defined slots) sorted /\
      StronglySorted le sorted /\ stable_for le (defined slots) sorted.
Proof. exact array_sort_correct. Qed.
Print Assumptions C03_array_sort_correct.

(** C03: if the comparator throws, the array is left exactly as it was. *)
Theorem C03_array_sort_throw_unchanged :
  forall (V W : Type) (user : W -> V -> V -> option cmpres * W) w slots r w',
    array_sort V W user w slots = (ASThrow r, w') -> r = slots.
Proof. exact array_sort_throw_unchanged. Qed.
Print Assumptions C03_array_sort_throw_unchanged.

Theorem C03_array_sort_total :
  forall (V W : Type) (user : W -> V -> V -> option cmpres * W) w slots,
    fst (array_sort V W user w slots) <> ASBad.
Proof. exact array_sort_not_bad. Qed.
Print Assumptions C03_array_sort_total.

(** C03: the default order of typed arrays is a weak order (NaN last, -0
    before +0), so the default sort is sorted and stable for it. *)
Theorem C03_typed_array_default_order : weak_order dnum_cmp dnum_le.
Proof. exact dnum_weak_order. Qed.
Print Assumptions C03_typed_array_default_order.

(** C03: ... and each of the three answers is exact. *)
Theorem C03_typed_array_default_exact : forall x y,
  (dnum_cmp x y = CLess <-> dnum_le x y /\ ~ dnum_le y x) /\
  (dnum_cmp x y = CGreater <-> dnum_le y x /\ ~ dnum_le x y) /\
  (dnum_cmp x y = CEqual <-> dnum_le x y /\ dnum_le y x).
Proof. exact dnum_cmp_exact. Qed.
Print Assumptions C03_typed_array_default_exact.

(** Non-vacuity: the comparator [fst a - fst b] on pairs is a pure weak
    order, and the sort really permutes. *)
Definition ex_cmp (a b : nat * nat) : cmpres :=
  if fst a <? fst b then CLess else if fst b <? fst a then CGreater else CEqual.
Example ex_weak_order : weak_order ex_cmp (fun a b => fst a <= fst b).
Proof.
  split.
  - intros x y. unfold ex_cmp.
    destruct (Nat.ltb_spec (fst x) (fst y)); [split; [discriminate|lia]|].
    destruct (Nat.ltb_spec (fst y) (fst x)); split; intros; try lia; try congruence.
  - intros; lia.
  - intros; lia.
Qed.
Example ex_pure : pure_cmp (fun (w : unit) a b => (Some (ex_cmp a b), w)) ex_cmp.
Proof. intros w x y. reflexivity. Qed.
Example ex_sort :
  rjs_sort (nat * nat) unit (fun w a b => (Some (ex_cmp a b), w)) tt
           [(3,0); (1,1); (2,2); (1,3); (3,4)]
  = (SOk [(1,1); (1,3); (2,2); (3,0); (3,4)], tt).
Proof. vm_compute. reflexivity. Qed.
(** A comparator that throws at its fourth call leaves a permutation. *)
Example ex_sort_throw :
  fst (rjs_sort nat nat (fun w a b => (if w =? 3 then None
                                       else Some (if b <? a then CGreater else CLess), S w))
           0 [4;3;2;1]) = SThrow [3;4;1;2].
Proof. vm_compute. reflexivity. Qed.
Example ex_array_sort :
  fst (array_sort (nat * nat) unit (fun w a b => (Some (ex_cmp a b), w)) tt
         [Some (Some (2,0)); None; Some None; Some (Some (1,1)); None])
  = ASOk [Some (Some (1,1)); Some (Some (2,0)); Some None; None; None].
Proof. vm_compute. reflexivity. Qed.
Example ex_typed_order :
  dnum_cmp (DVal 0 true) (DVal 0 false) = CLess /\ dnum_cmp DNaN (DVal 5 false) = CGreater.
Proof. split; reflexivity. Qed.
