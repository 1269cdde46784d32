(** Specification of index names, independent of the model. *)
From Coq Require Import List ZArith.
Import ListNotations.
Local Open Scope Z_scope.

Definition digit (c : Z) : Prop := 48 <= c <= 57.
(** value of a digit string *)
Fixpoint value_from (n : Z) (ds : list Z) : Z :=
  match ds with [] => n | c :: t => value_from (10 * n + (c - 48)) t end.

(** The canonical decimal form of an array index (ECMA-262 6.1.7). *)
Definition index_name (s : list Z) (n : Z) : Prop :=
  0 <= n <= 2 ^ 32 - 2 /\ s <> [] /\ Forall digit s /\ value_from 0 s = n /\
  (forall t, s = 48 :: t -> t = []).

(** What the code takes for an index: blanks around and leading zeros are
    accepted. *)
Definition loose_index (blank : Z -> Prop) (s : list Z) (n : Z) : Prop :=
  exists pre ds post, s = pre ++ ds ++ post /\ Forall blank pre /\ Forall blank post /\
    ds <> [] /\ Forall digit ds /\ value_from 0 ds = n /\ n <= 2 ^ 32 - 2.
