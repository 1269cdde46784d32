(** Model of replacement templates and of replace/replaceAll with a string
    pattern: rjs_get_substitution (src/lib/rjs_string.c:1404-1567) and
    String.prototype.replace/replaceAll (src/lib/rjs_string_object_inc.c:896-1125).

    The pointer [c] into the template is the suffix of the template it points
    to.  The reading of the captures array (1428-1464) is done by user-visible
    gets before the loop: [cn] is its length, [caps] the converted values from
    index 1 on, [groups] the group object as a function from names (a get can
    throw).  A failed assert in rjs_string_substr is [SUB].
    Not modelled: allocation failure. *)
From Coq Require Import List ZArith Bool Lia.
Import ListNotations.
From Verif Require Import StrModel.
Local Open Scope Z_scope.

Definition lookup := str -> sres (option str).

(** the scan for '>' , rjs_string.c:1500-1504: the name and what follows '>' *)
Fixpoint scan_gt (c : str) : option (str * str) :=
  match c with
  | [] => None
  | x :: t => if x =? 62 then Some ([], t)
              else match scan_gt t with Some (n, r) => Some (x :: n, r) | None => None end
  end.

(** the digit case, rjs_string.c:1527-1555; [d] is the first digit, [c] the text
    after it.  Result: appended text and new position. *)
Definition subst_digit (cn : Z) (caps : list (option str)) (d : Z) (c : str) : sres (str * str) :=
  let n := d - 48 in
  let '(n, c', t) :=
    match c with
    | x :: c1 => if is_digit x
                 then let nn := n * 10 + (x - 48) in
                      if (0 <=? nn) && (nn <? cn) then (nn, c1, [36; d; x]) else (n, c, [36; d])
                 else (n, c, [36; d])
    | [] => (n, c, [36; d])
    end in
  if (n =? 0) || (cn <=? n) then SOk (t, c')
  else match nth_error caps (Z.to_nat (n - 1)) with
       | None => SUB
       | Some None => SOk ([], c')
       | Some (Some s) => SOk (s, c')
       end.

(** main loop, rjs_string.c:1474-1561 *)
Fixpoint subst_loop (fuel : nat) (s : str) (pos : nat) (mstr : str) (cn : Z) (caps : list (option str))
    (groups : option lookup) (ucb : str) (c : str) : sres str :=
  match c with
  | [] => SOk ucb
  | x :: c1 =>
      match fuel with
      | O => SUB
      | S f =>
          let go := subst_loop f s pos mstr cn caps groups in
          if x =? 36 then
            match c1 with
            | [] => go (ucb ++ [36]) c1
            | y :: c2 =>
                if y =? 36 then go (ucb ++ [36]) c2
                else if y =? 96 then
                  do sub <- substr s 0 pos; go (ucb ++ sub) c2
                else if y =? 38 then go (ucb ++ mstr) c2
                else if y =? 39 then
                  do sub <- substr s (pos + length mstr) (length s); go (ucb ++ sub) c2
                else if y =? 60 then
                  match scan_gt c2, groups with
                  | Some (name, rest), Some get =>
                      do v <- get name;
                      match v with
                      | None => go ucb rest
                      | Some t => go (ucb ++ t) rest
                      end
                  | _, _ => go (ucb ++ [36; 60]) c2
                  end
                else if is_digit y then
                  do p <- subst_digit cn caps y c2; go (ucb ++ fst p) (snd p)
                else go (ucb ++ [36]) c1
            end
          else go (ucb ++ [x]) c1
      end
  end.

(** rjs_get_substitution, rjs_string.c:1404-1567 *)
Definition get_substitution (s : str) (pos : nat) (mstr : str) (cn : Z) (caps : list (option str))
    (groups : option lookup) (templ : str) : sres str :=
  subst_loop (length templ) s pos mstr cn caps groups [] templ.

(** How the replacement for the match at a position is found: by a template
    (captures = [search string], no groups; rjs_string_object_inc.c:962-970) or
    by calling a function, modelled as a function of the position - each
    position is asked at most once. *)
Inductive replacer := RTemplate (t : str) | RFunc (f : nat -> sres str).

Definition replacement (s search : str) (r : replacer) (pos : nat) : sres str :=
  match r with
  | RTemplate t => get_substitution s pos search 1 [] None t
  | RFunc f => f pos
  end.

(** String.prototype.replace without Symbol.replace,
    rjs_string_object_inc.c:936-1000 *)
Definition js_replace (s search : str) (r : replacer) : sres str :=
  do pos <- index_of s search 0;
  if pos =? -1 then SOk s
  else
    let p := Z.to_nat pos in
    do rres <- replacement s search r p;
    if (length s <? p + length search)%nat then SUB
    else SOk (firstn p s ++ rres ++ skipn (p + length search) s).

(** String.prototype.replaceAll without Symbol.replace, main loop
    rjs_string_object_inc.c:1086-1112 *)
Fixpoint replace_all_loop (fuel : nat) (s search : str) (r : replacer) (ucb : str) (start : nat) (pos : Z)
    : sres str :=
  if pos =? -1 then
    if (start <? length s)%nat then SOk (ucb ++ skipn start s) else SOk ucb
  else
    match fuel with
    | O => SUB
    | S f =>
        do pre <- substr s start (Z.to_nat pos);
        do rres <- replacement s search r (Z.to_nat pos);
        let start := (Z.to_nat pos + length search)%nat in
        let spos := if Nat.eqb (length search) 0 then S start else start in
        do pos <- index_of s search spos;
        replace_all_loop f s search r (ucb ++ pre ++ rres) start pos
    end.
Definition js_replaceAll (s search : str) (r : replacer) : sres str :=
  do pos <- index_of s search 0;
  replace_all_loop (S (S (length s))) s search r [] 0 pos.
