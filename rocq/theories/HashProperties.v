(** Property theorems for the hash table (C11). *)
From Coq Require Import List Arith Bool Lia Permutation.
Import ListNotations.
From Verif Require Import HashModel HashSpec HashProofs.

(** C11: for every hash function consistent with the key equivalence (however
    badly it collides) and every history of additions and deletions, the table
    never makes an invalid access and behaves as the finite map: same number of
    entries, same entries, every lookup agrees; and the load stays bounded. *)
Theorem C11_hash_table_is_finite_map :
  forall (K E : Type) (hkey : K -> nat) (keq : K -> K -> bool),
    (forall a b, keq a b = true -> keq b a = true) ->
    (forall a b c, keq a b = true -> keq b c = true -> keq a c = true) ->
    (forall a b, keq a b = true -> hkey a = hkey b) ->
    forall ops, exists h,
      hrun K E hkey keq (hash_init K E) ops = Some h /\
      entry_num K E h = length (srun K E keq ops) /\
      entry_num K E h <= 3 * list_num K E h /\
      Permutation (concat (lists K E h)) (srun K E keq ops) /\
      forall k, exists pe,
        rjs_hash_lookup K E hkey keq h k = Some (sget K E keq (srun K E keq ops) k, pe).
Proof. exact hash_refines_map. Qed.
Print Assumptions C11_hash_table_is_finite_map.

(** Non-vacuity: the equality of naturals with a hash colliding for all
    multiples of 3 meets the hypotheses, and a history that expands the table
    and deletes runs as claimed. *)
Example C11_hypotheses_met :
  (forall a b, Nat.eqb a b = true -> Nat.eqb b a = true) /\
  (forall a b c, Nat.eqb a b = true -> Nat.eqb b c = true -> Nat.eqb a c = true) /\
  (forall a b, Nat.eqb a b = true -> a mod 3 = b mod 3).
Proof.
  repeat split; intros *; rewrite ?Nat.eqb_eq; intros; subst; reflexivity.
Qed.

Example C11_concrete :
  let ops := map (fun i => HAdd nat nat i (10 * i)) (seq 0 12)
             ++ [HDel nat nat 5; HAdd nat nat 5 7; HAddNull nat nat 3 99; HDel nat nat 0] in
  match hrun nat nat (fun a => a mod 3) Nat.eqb (hash_init nat nat) ops with
  | Some h => (entry_num _ _ h, list_num _ _ h,
               map (fun k => option_map fst (rjs_hash_lookup nat nat (fun a => a mod 3) Nat.eqb h k))
                   [0; 3; 5; 11; 12])
  | None => (0, 0, [])
  end = (11, 8, [Some None; Some (Some (3, 30)); Some (Some (5, 7)); Some (Some (11, 110)); Some None]).
Proof. vm_compute. reflexivity. Qed.
