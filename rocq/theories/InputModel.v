(** Model of the character input of the parsers: src/lib/rjs_input.c.
    [UB] is a failed assertion or a read outside the string.  The columns and
    lines are C ints; their overflow after 2^31 characters is not modelled. *)
From Coq Require Import List ZArith Bool.
From Verif Require Import StrModel JsonModel.
Import ListNotations.
Local Open Scope Z_scope.

(** RJS_Input, include/rjs_input.h: position, line, column and the flag
    RJS_INPUT_FL_NEW_LINE *)
Record input := Input { pos : nat; line : Z; column : Z; newline : bool }.

(** input_init, rjs_input.c:29-40 *)
Definition input_init : input := Input 0 1 0 false.

Inductive ires (A : Type) := IOk (a : A) | IUB.
Arguments IOk {A} a.
Arguments IUB {A}.
Definition ibind {A B} (m : ires A) (k : A -> ires B) : ires B :=
  match m with IOk a => k a | IUB => IUB end.
Notation "'ido' x <- m ; k" := (ibind m (fun x => k)) (at level 200, x name, m at level 100, k at level 200).

Section Input.
(** chars: the units of the string; crlf: the flag RJS_INPUT_FL_CRLF_TO_LF *)
Variables (chars : str) (crlf : bool).

(** an element of the C array *)
Definition at_ (i : nat) : ires Z := match nth_error chars i with Some c => IOk c | None => IUB end.

(** rjs_input_get_uc, rjs_input.c:216-259 *)
Definition get_uc (i : input) : ires (Z * input) :=
  let '(ln, col) := if newline i then (line i + 1, 0) else (line i, column i) in
  ido p <- (if (List.length chars <=? pos i)%nat then IOk (-1, pos i)
            else
              ido c <- at_ (pos i);
              let p := S (pos i) in
              ido pair <- (if is_leading c && (p <? List.length chars)%nat
                           then ido c1 <- at_ p; IOk (if is_trailing c1 then Some c1 else None)
                           else IOk None);
              match pair with
              | Some c1 => IOk (pair_to_uc c c1, S p)
              | None =>
                  if crlf && (c =? 13) then
                    if (p <? List.length chars)%nat
                    then ido c1 <- at_ p; IOk (10, if c1 =? 10 then S p else p)
                    else IOk (10, p)
                  else IOk (c, p)
              end);
  let '(c, p) := p in
  if 0 <=? c then IOk (c, Input p ln (col + 1) (is_line_terminator c))
  else IOk (c, Input p ln col false).

(** rjs_input_unget_uc, rjs_input.c:267-297 *)
Definition unget_uc (i : input) (c : Z) : ires input :=
  if 0 <=? c then
    ido p <- (if (2 <=? pos i)%nat then
                ido a <- at_ (pos i - 1);
                ido b <- at_ (pos i - 2);
                IOk (if is_trailing a && is_leading b then (pos i - 2)%nat
                     else if crlf && ((a =? 10) && (b =? 13)) then (pos i - 2)%nat
                     else (pos i - 1)%nat)
              else match pos i with O => IUB | S p => IOk p end);
    IOk (Input p (line i) (column i - 1) false)
  else IOk i.

(** A use of the input: reads, and push-backs of the newest character not yet pushed
    back ([true]: read).  [h] are the characters read and not pushed back. *)
Fixpoint run (ops : list bool) (i : input) (h : list Z) : ires (input * list Z) :=
  match ops with
  | [] => IOk (i, h)
  | true :: r => ido p <- get_uc i; run r (snd p) (fst p :: h)
  | false :: r =>
      match h with
      | c :: h' => ido i' <- unget_uc i c; run r i' h'
      | [] => IUB
      end
  end.
End Input.
