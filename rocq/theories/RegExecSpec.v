(** RegExpBuiltinExec, ECMAScript 22.2.7.2: which match is taken and what the
    result is made of. *)
From Coq Require Import ZArith List Bool Arith.
Import ListNotations.
From Verif Require Import RegSpec.
Local Open Scope nat_scope.

(** [M i]: the matcher at the index i; n: the length of the text *)
Definition leftmost (M : nat -> mr) (sticky : bool) (n i j : nat) (y : state) : Prop :=
  i <= j <= n /\ M j = Found y /\ (sticky = true -> j = i) /\ forall k, i <= k < j -> M k = Failure.
Definition nowhere (M : nat -> mr) (sticky : bool) (n i : nat) : Prop :=
  forall k, i <= k <= n -> (sticky = true -> k = i) -> M k = Failure.
(** the part of the string from [a] to [b] *)
Definition slice (s : list Z) (a b : nat) : list Z := firstn (b - a) (skipn a s).
(** a group of the name took part in the match *)
Definition took_part (names : list Z) (l : caps) (nid : Z) (k : nat) (r : nat * nat) : Prop :=
  1 <= k /\ nth k names (-1)%Z = nid /\ cap l k = Some r.
