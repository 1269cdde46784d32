(** Property theorems for the for-in iterator (C88). *)
From Coq Require Import List ZArith Bool Lia.
Import ListNotations.
From Verif Require Import ForInModel ForInSpec ForInProofs ForInRun.
Local Open Scope Z_scope.

(** C88: whatever the objects answer (proxies, changes made by the loop body),
    the loop asks the same questions, produces the same names and ends in the
    same way as the standard says, provided that symbols are listed last, that
    no index string is listed after another string (so index keys are on the
    first object only) and that no name is listed in both forms. *)
Theorem C88_for_in_is_standard : forall o a,
  lists_ok a -> index_first (listed a) -> one_form (listed a) ->
  for_in o a = s_for_in o a /\ snd (fst (for_in o a)) <> Fuel.
Proof. exact for_in_same. Qed.
Print Assumptions C88_for_in_is_standard.

(** C88: no name is produced twice. *)
Theorem C88_for_in_once : forall o a,
  lists_ok a -> index_first (listed a) -> one_form (listed a) ->
  NoDup (fst (fst (for_in o a))).
Proof. exact for_in_once. Qed.
Print Assumptions C88_for_in_once.

(** C88: for objects that do not change, the names are exactly the enumerable
    ones that no earlier object of the chain has, in order. *)
Theorem C88_for_in_static : forall c, c <> [] -> Forall object_ok c ->
  index_first (concat (map (map fst) c)) -> one_form (concat (map (map fst) c)) ->
  exists qs, for_in (Some 0) (replies 0 [] c) = (expected [] c, Done, qs) /\
    map (truth c) qs = replies 0 [] c.
Proof. exact for_in_static. Qed.
Print Assumptions C88_for_in_static.

(** An array with a shadowing and a hidden property on its prototypes. *)
Definition C88_chain : list props :=
  [[(Idx 0, true); (Idx 10, false); (Str [108], false); (Str [120], true); (Sym 1, true)];
   [(Str [120], true); (Str [121], false); (Str [122], true); (Sym 2, true)];
   [(Str [121], true); (Str [119], true)]].
Example C88_witness :
  Forall object_ok C88_chain /\ index_first (concat (map (map fst) C88_chain)) /\
  one_form (concat (map (map fst) C88_chain)) /\
  expected [] C88_chain = [[48]; [120]; [122]; [119]] /\
  fst (for_in (Some 0) (replies 0 [] C88_chain)) = ([[48]; [120]; [122]; [119]], Done).
Proof.
  split; [|split; [|split; [|split; vm_compute; reflexivity]]].
  - repeat (apply Forall_cons; [split; [|split]|]); try apply Forall_nil.
    all: match goal with
         | |- NoDup _ => repeat constructor; vm_compute; intuition discriminate
         | |- symbols_last _ => cbn; repeat constructor; eauto
         | |- _ => repeat constructor; cbn; lia
         end.
  - cbn. intuition (try discriminate).
  - intros n s A B. cbn in A, B.
    repeat (destruct A as [A|A]; [try discriminate; injection A as <-|]); try contradiction;
    repeat (destruct B as [B|B]; [try discriminate; injection B as <-; vm_compute; discriminate|]); contradiction.
Qed.

(** Two ordinary objects: {a, b, c, d} with prototype {10}.  The loop produces
    "10" twice. *)
Definition C88_twice : list props :=
  [[(Str [97], true); (Str [98], true); (Str [99], true); (Str [100], true)]; [(Idx 10, true)]].
Theorem C88_for_in_once_refuted : exists a,
  let '(l, w, qs) := for_in (Some 0) a in
  w = Done /\ map (truth C88_twice) qs = a /\
  Forall (fun p => index_first (map fst p)) C88_twice /\
  l = [[97]; [98]; [99]; [100]; [49; 48]; [49; 48]] /\
  expected [] C88_twice = [[97]; [98]; [99]; [100]; [49; 48]].
Proof.
  exists [Keys [Str [97]; Str [98]; Str [99]; Str [100]]; Desc (Some true); Desc (Some true); Desc (Some true);
     Desc (Some true); Proto (Some 1); Keys [Idx 10]; Desc (Some true); Desc (Some true); Proto None].
  vm_compute. repeat (split; [reflexivity|]). split; [|split; reflexivity].
  repeat constructor; intros n H; intuition discriminate.
Qed.
Print Assumptions C88_for_in_once_refuted.

(** {10 (not enumerable), a, b, c} with prototype {10}: the hidden property of
    the object does not hide the one of the prototype. *)
Definition C88_hidden : list props :=
  [[(Idx 10, false); (Str [97], true); (Str [98], true); (Str [99], true)]; [(Idx 10, true)]].
Theorem C88_for_in_shadow_refuted : exists a,
  let '(l, w, qs) := for_in (Some 0) a in
  w = Done /\ map (truth C88_hidden) qs = a /\
  Forall (fun p => index_first (map fst p)) C88_hidden /\
  l = [[97]; [98]; [99]; [49; 48]] /\ expected [] C88_hidden = [[97]; [98]; [99]].
Proof.
  exists [Keys [Idx 10; Str [97]; Str [98]; Str [99]]; Desc (Some false); Desc (Some true); Desc (Some true);
     Desc (Some true); Proto (Some 1); Keys [Idx 10]; Desc (Some true); Proto None].
  vm_compute. repeat (split; [reflexivity|]). split; [|split; reflexivity].
  repeat constructor; intros n H; intuition discriminate.
Qed.
Print Assumptions C88_for_in_shadow_refuted.

(** A proxy may list a symbol before a string, which is then left out. *)
Theorem C88_symbol_first_refuted : exists a,
  fst (for_in (Some 0) a) = ([], Done) /\ fst (s_for_in (Some 0) (Keys [Sym 1; Str [97]] :: Desc (Some true) :: tl a))
    = ([[97]], Done) /\ hd Err a = Keys [Sym 1; Str [97]].
Proof. exists [Keys [Sym 1; Str [97]]; Proto None]. vm_compute. auto. Qed.
Print Assumptions C88_symbol_first_refuted.
