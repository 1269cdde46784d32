(** Specifications for strings, independent of the model. *)
From Coq Require Import List ZArith Bool Lia.
Import ListNotations.
Local Open Scope Z_scope.

(** [p] occurs in [s] at position [i]. *)
Definition occurs (p s : list Z) (i : nat) : Prop :=
  exists pre post, s = pre ++ p ++ post /\ length pre = i.

(** [r] is the least occurrence position >= from, or -1. *)
Definition first_from (p s : list Z) (from : nat) (r : Z) : Prop :=
  (exists i, r = Z.of_nat i /\ (from <= i)%nat /\ occurs p s i /\
             forall j, (from <= j)%nat -> occurs p s j -> (i <= j)%nat) \/
  (r = -1 /\ forall j, (from <= j)%nat -> ~ occurs p s j).

(** [r] is the greatest occurrence position <= upto, or -1. *)
Definition last_upto (p s : list Z) (upto : nat) (r : Z) : Prop :=
  (exists i, r = Z.of_nat i /\ (i <= upto)%nat /\ occurs p s i /\
             forall j, (j <= upto)%nat -> occurs p s j -> (j <= i)%nat) \/
  (r = -1 /\ forall j, (j <= upto)%nat -> ~ occurs p s j).

(** Lexicographic order of code units: a proper prefix, or the first
    difference decides. *)
Definition lex_lt (a b : list Z) : Prop :=
  (exists x r, b = a ++ x :: r) \/
  (exists p x y ra rb, a = p ++ x :: ra /\ b = p ++ y :: rb /\ x < y).

(** ECMAScript WhiteSpace and LineTerminator (ECMA-262 12.2, 12.3): TAB, LF,
    VT, FF, CR, SP, NBSP, ZWNBSP, LS, PS and category Zs. *)
Definition es_space (c : Z) : Prop :=
  In c [0x9; 0xa; 0xb; 0xc; 0xd; 0x20; 0xa0; 0x1680; 0x2000; 0x2001; 0x2002; 0x2003; 0x2004;
        0x2005; 0x2006; 0x2007; 0x2008; 0x2009; 0x200a; 0x2028; 0x2029; 0x202f; 0x205f; 0x3000;
        0xfeff].

(** [r] is [s] without its maximal leading/trailing runs of [sp] characters. *)
Definition trimmed (sp : Z -> Prop) (at_start at_end : bool) (s r : list Z) : Prop :=
  exists pre post, s = pre ++ r ++ post /\ Forall sp pre /\ Forall sp post /\
    (if at_start then forall c t, r = c :: t -> ~ sp c else pre = []) /\
    (if at_end then forall c t, r = t ++ [c] -> ~ sp c else post = []).

(** [f] is the length-n prefix of p p p p … *)
Definition filler (p : list Z) (n : nat) (f : list Z) : Prop :=
  length f = n /\ forall i, (i < n)%nat -> nth i f 0 = nth (i mod length p) p 0.

(** Splitting at non-overlapping occurrences, leftmost first. *)
Inductive splits (sep : list Z) : list Z -> list (list Z) -> Prop :=
| splits_end s : (forall i, ~ occurs sep s i) -> splits sep s [s]
| splits_next s i r : occurs sep s i -> (forall j, occurs sep s j -> (i <= j)%nat) ->
    splits sep (skipn (i + length sep) s) r ->
    splits sep s (firstn i s :: r).

Fixpoint join (sep : list Z) (l : list (list Z)) : list Z :=
  match l with [] => [] | [x] => x | x :: r => x ++ sep ++ join sep r end.

(** Code points of a UTF-16 text (ECMA-262 CodePointsToString/StringToCodePoints):
    a high surrogate directly followed by a low one is one code point. *)
Definition high (c : Z) : Prop := 0xd800 <= c <= 0xdbff.
Definition low (c : Z) : Prop := 0xdc00 <= c <= 0xdfff.
Definition utf16 (cp : Z) (u : list Z) : Prop :=
  (0 <= cp <= 0xffff /\ u = [cp]) \/
  (0x10000 <= cp <= 0x10ffff /\
   exists h l, high h /\ low l /\ u = [h; l] /\ cp = 0x10000 + (h - 0xd800) * 1024 + (l - 0xdc00)).

(** the pieces of a text, one per code point *)
Inductive pieces : list Z -> list (list Z) -> Prop :=
| pieces_nil : pieces [] []
| pieces_pair h l s r : high h -> low l -> pieces s r -> pieces (h :: l :: s) ([h; l] :: r)
| pieces_one c s r : ~ (high c /\ exists l s', s = l :: s' /\ low l) ->
    pieces s r -> pieces (c :: s) ([c] :: r).

(** an index relative to either end, as in slice: negative counts from the end,
    then clamped to 0..l *)
Definition rel_bound (n l b : Z) : Prop :=
  (0 <= n -> b = Z.min n l) /\ (n < 0 -> b = Z.max (l + n) 0).
