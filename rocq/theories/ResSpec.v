(** What an exported name stands for, independent of the search of the engine. *)
From Coq Require Import List.
From Verif Require Import ResModel.
Import ListNotations.

Section Spec.
Variable P : modules.

(** [n] is an own (local or indirect) exported name of [m], standing for [t]. *)
Definition own (m n : nat) (t : target) : Prop := lookup P m n = Some t.

(** [means m n b]: the name [n] exported by [m] stands for the binding [b].  An
    own name hides what star exports bring; "default" is never brought by
    them. *)
Inductive means (m n : nat) : binding -> Prop :=
| means_local ln : own m n (Local ln) -> means m n (m, Some ln)
| means_namespace r : own m n (Namespace r) -> means m n (r, None)
| means_indirect r i b : own m n (Indirect r i) -> means r i b -> means m n b
| means_star r b : (forall t, ~ own m n t) -> n <> dflt P -> In r (stars P m) ->
    means r n b -> means m n b.

Definition unique (m n : nat) (b : binding) : Prop :=
  means m n b /\ forall b', means m n b' -> b' = b.
Definition ambiguous (m n : nat) : Prop := exists b b', means m n b /\ means m n b' /\ b <> b'.
Definition unknown (m n : nat) : Prop := forall b, ~ means m n b.

(** A finite set of modules with everything they refer to. *)
Definition closed (U : list nat) : Prop :=
  forall m, In m U ->
    (forall r, In r (stars P m) -> In r U) /\
    (forall n r i, In (n, Indirect r i) (entries P m) -> In r U).

(** All names under which the modules import. *)
Definition asked (U : list nat) : list nat :=
  flat_map (fun m => flat_map (fun e => match snd e with Indirect _ i => [i] | _ => [] end) (entries P m)) U.

(** Enough fuel for the modules [U]. *)
Definition room (U : list nat) : nat := length U * S (length (asked U)).
End Spec.
