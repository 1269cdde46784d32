(** Specification of GetSubstitution (ECMA-262 22.1.3.18.1) and of replacing
    all occurrences, independent of the model. *)
From Coq Require Import List ZArith.
Import ListNotations.
From Verif Require Import StrSpec.
Local Open Scope Z_scope.

Definition is_digit_char (c : Z) : Prop := 48 <= c <= 57.

(** The outcome of asking for a group: its text, undefined, or an exception. *)
Inductive answer := AText (s : list Z) | AUndefined | AThrow.

Section Subst.
  Variable s : list Z.               (* subject *)
  Variable pos : nat.                (* match position *)
  Variable m : list Z.               (* matched text *)
  Variable caps : list (option (list Z)).   (* captures 1, 2, … *)
  Variable groups : option (list Z -> answer).

  Definition ncaps : Z := Z.of_nat (length caps).
  (** the text of capture k, 1 <= k <= ncaps *)
  Definition cap (k : Z) : list Z :=
    match nth_error caps (Z.to_nat (k - 1)) with Some (Some t) => t | _ => [] end.

  (** [piece t repl rest]: the template [t] starts with a reference standing for
      [repl] (None: an exception), [rest] follows it. *)
  Inductive piece : list Z -> option (list Z) -> list Z -> Prop :=
  | p_char c t : c <> 36 -> piece (c :: t) (Some [c]) t
  | p_dollar t : piece (36 :: 36 :: t) (Some [36]) t
  | p_before t : piece (36 :: 96 :: t) (Some (firstn pos s)) t
  | p_match t : piece (36 :: 38 :: t) (Some m) t
  | p_after t : piece (36 :: 39 :: t) (Some (skipn (Nat.min (pos + length m) (length s)) s)) t
  | p_cap2 d1 d2 t k : is_digit_char d1 -> is_digit_char d2 ->
      k = 10 * (d1 - 48) + (d2 - 48) -> 1 <= k <= ncaps -> piece (36 :: d1 :: d2 :: t) (Some (cap k)) t
  | p_cap00 t : piece (36 :: 48 :: 48 :: t) (Some [36; 48; 48]) t
  | p_cap1 d1 t k : is_digit_char d1 -> k = d1 - 48 ->
      (forall d2 t', t = d2 :: t' -> is_digit_char d2 -> ncaps < 10 * (d1 - 48) + (d2 - 48)) ->
      1 <= k <= ncaps -> piece (36 :: d1 :: t) (Some (cap k)) t
  | p_nocap1 d1 t : is_digit_char d1 ->
      (forall d2 t', t = d2 :: t' -> is_digit_char d2 -> ncaps < 10 * (d1 - 48) + (d2 - 48)) ->
      ~ (1 <= d1 - 48 <= ncaps) -> piece (36 :: d1 :: t) (Some [36; d1]) t
  | p_name get name t : groups = Some get -> ~ In 62 name ->
      piece (36 :: 60 :: name ++ 62 :: t)
            (match get name with AText x => Some x | AUndefined => Some [] | AThrow => None end) t
  | p_noname t : groups = None \/ ~ In 62 t -> piece (36 :: 60 :: t) (Some [36; 60]) t
  | p_lone t : (forall c t', t = c :: t' -> ~ is_digit_char c /\ ~ In c [36; 38; 39; 60; 96]) ->
      piece (36 :: t) (Some [36]) t.

  Inductive expands : list Z -> option (list Z) -> Prop :=
  | e_nil : expands [] (Some [])
  | e_text t r rest x : piece t (Some r) rest -> expands rest (Some x) -> expands t (Some (r ++ x))
  | e_throw_later t r rest : piece t (Some r) rest -> expands rest None -> expands t None
  | e_throw t rest : piece t None rest -> expands t None.
End Subst.

(** The positions replaced by replaceAll: leftmost first, the next search
    starts after the match (one further if the pattern is empty). *)
Inductive matches (p s : list Z) : nat -> list nat -> Prop :=
| m_none from : (forall j, (from <= j)%nat -> ~ occurs p s j) -> matches p s from []
| m_next from i l : (from <= i)%nat -> occurs p s i ->
    (forall j, (from <= j)%nat -> occurs p s j -> (i <= j)%nat) ->
    matches p s (i + Nat.max 1 (length p)) l -> matches p s from (i :: l).

(** The subject from [start] on with the matches at the given positions
    replaced. *)
Fixpoint weave (p s : list Z) (start : nat) (l : list nat) (reps : list (list Z)) : list Z :=
  match l, reps with
  | i :: l', r :: reps' => firstn (i - start) (skipn start s) ++ r ++ weave p s (i + length p) l' reps'
  | _, _ => skipn start s
  end.
