(** The characters of an input, independent of the model. *)
From Coq Require Import List ZArith Bool Lia.
Import ListNotations.
Local Open Scope Z_scope.

Definition high (c : Z) : Prop := 0xd800 <= c <= 0xdbff.
Definition low (c : Z) : Prop := 0xdc00 <= c <= 0xdfff.
Definition starts (P : Z -> Prop) (s : list Z) : Prop := exists c r, s = c :: r /\ P c.

(** [decoded crlf s l]: the units [s] are the characters [l], each with its units; with
    [crlf], CR LF and CR count as LF *)
Inductive decoded (crlf : bool) : list Z -> list (Z * list Z) -> Prop :=
| D_nil : decoded crlf [] []
| D_pair h t c r l : high h -> low t -> c = 0x10000 + 1024 * (h - 0xd800) + (t - 0xdc00) -> decoded crlf r l ->
    decoded crlf (h :: t :: r) ((c, [h; t]) :: l)
| D_crlf r l : crlf = true -> decoded crlf r l -> decoded crlf (13 :: 10 :: r) ((10, [13; 10]) :: l)
| D_cr r l : crlf = true -> ~ starts (fun c => c = 10) r -> decoded crlf r l -> decoded crlf (13 :: r) ((10, [13]) :: l)
| D_one c r l : 0 <= c <= 0xffff -> ~ (high c /\ starts low r) -> ~ (crlf = true /\ c = 13) -> decoded crlf r l ->
    decoded crlf (c :: r) ((c, [c]) :: l).

(** Reading ([true]) and pushing back ([false]): the [n]-th character is next *)
(** what each reading gives: the character, or -1 at the end; the second list are the results
    not yet pushed back, newest first *)
Inductive steps (l : list (Z * list Z)) : nat -> list Z -> list bool -> nat -> list Z -> Prop :=
| S_nil n h : steps l n h [] n h
| S_get n h c u ops n' h' : nth_error l n = Some (c, u) ->
    steps l (S n) (c :: h) ops n' h' -> steps l n h (true :: ops) n' h'
| S_end n h ops n' h' : nth_error l n = None ->
    steps l n (-1 :: h) ops n' h' -> steps l n h (true :: ops) n' h'
| S_unget n h c ops n' h' : 0 <= c ->
    steps l n h ops n' h' -> steps l (S n) (c :: h) (false :: ops) n' h'
| S_unget_end n h ops n' h' :
    steps l n h ops n' h' -> steps l n (-1 :: h) (false :: ops) n' h'.

(** the number of units of the first [n] characters *)
Definition offset (l : list (Z * list Z)) (n : nat) : nat := List.length (List.concat (map snd (firstn n l))).

(** ECMA-262 line terminators *)
Definition terminator (c : Z) : Prop := c = 10 \/ c = 13 \/ c = 0x2028 \/ c = 0x2029.
(** [located cs ln col]: line and column of the last of the characters [cs] *)
Inductive located : list Z -> Z -> Z -> Prop :=
| L_first : located [] 1 0
| L_same cs c ln col : located cs ln col -> (cs = [] \/ exists a b, cs = a ++ [b] /\ ~ terminator b) -> located (cs ++ [c]) ln (col + 1)
| L_next cs b c ln col : located (cs ++ [b]) ln col -> terminator b -> located (cs ++ [b] ++ [c]) (ln + 1) 1.
