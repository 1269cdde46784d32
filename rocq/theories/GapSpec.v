(** What may stand between tokens: ECMA-262 (2023) 12.2 to 12.5 and 12.10. *)
From Coq Require Import List ZArith Bool.
Import ListNotations.
Local Open Scope Z_scope.

(** 12.3 LineTerminator: LF, CR, LS, PS *)
Definition terminator (c : Z) : Prop := In c [10; 13; 8232; 8233].
(** 12.2 WhiteSpace: TAB, VT, FF, ZWNBSP and the category Zs (Unicode 15) *)
Definition white (c : Z) : Prop :=
  In c [9; 11; 12; 65279; 32; 160; 5760; 8192; 8193; 8194; 8195; 8196; 8197; 8198; 8199; 8200; 8201; 8202; 8239; 8287; 12288].
(** 12.4: a comment up to a line terminator, and a comment with an end mark *)
Definition no_terminator (l : list Z) : Prop := forall c, In c l -> ~ terminator c.
(** the characters of the text do not contain an end mark [*/] *)
Definition no_end (l : list Z) : Prop := forall a b, l <> a ++ 42 :: 47 :: b.
(** the body of a comment: its own last star does not join with the end mark *)
Definition body (l : list Z) : Prop := forall a b, l ++ [42; 47] = a ++ 42 :: 47 :: b -> b = [].

(** a sequence of white space, line terminators and comments *)
Inductive gap : list Z -> Prop :=
| gap_nil : gap []
| gap_white : forall c g, white c -> gap g -> gap (c :: g)
| gap_line : forall c g, terminator c -> gap g -> gap (c :: g)
| gap_single : forall b c g, no_terminator b -> terminator c -> gap g -> gap (47 :: 47 :: b ++ c :: g)
| gap_multi : forall b g, body b -> gap g -> gap (47 :: 42 :: b ++ 42 :: 47 :: g).
(** what a token can start with: nothing that belongs to a gap *)
Definition token_start (t : list Z) : Prop :=
  match t with
  | [] => False
  | c :: r => ~ white c /\ ~ terminator c /\ (c = 47 -> match r with 47 :: _ | 42 :: _ => False | _ => True end)
  end.
(** the end of the text, perhaps after a comment to the end of its line *)
Definition text_end (t : list Z) : Prop := t = [] \/ exists b, no_terminator b /\ t = 47 :: 47 :: b.
(** a comment without an end *)
Definition open_comment (t : list Z) : Prop := exists b, no_end b /\ t = 47 :: 42 :: b.
(** 12.5 *)
Definition hashbang_line (l : list Z) : Prop := exists b, no_terminator b /\ l = 35 :: 33 :: b.

(** the number of line terminators *)
Fixpoint lines (l : list Z) : Z :=
  match l with
  | [] => 0
  | c :: l => (if existsb (Z.eqb c) [10; 13; 8232; 8233] then 1 else 0) + lines l
  end.
