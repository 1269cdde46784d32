(** Model of the pattern parser, src/lib/rjs_regexp.c:432-1500, 1536-1725.

    The parser reads the characters of the source, code points, from rjs_input.c;
    C62 shows that reading and pushing back there is reading from a list, so the
    input is the list of the characters left, and a character that is pushed back is
    simply not removed.  -1 is the end.
    The results: a value with the new state, a syntax error, [PUB] for undefined
    behaviour (overflow of int or int64_t, isalpha of a character above 255), [PFuel]
    for the recursion bound of the model.
    A terminal is identified for terms_both_participate by its path: for each
    terminal around it the number of the alternative and of the terminal.
    The Unicode property tables and the identifier tests are parameters; [junk] is the
    uninitialised member value of a property inside of a class (parse_class copies
    only the first member, rjs_regexp.c:985, 1015).
    Not modelled: allocation, the message texts, the conversion of the names to
    strings (a name is the list of its characters). *)
From Coq Require Import ZArith List Bool Arith.
Import ListNotations.
From Verif Require StrModel.
From Verif Require Import RegModel.
Local Open Scope Z_scope.

Inductive pres (A : Type) := POk (a : A) | PErr | PUB | PFuel.
Arguments POk {A} a. Arguments PErr {A}. Arguments PUB {A}. Arguments PFuel {A}.
Definition pbind {A B} (m : pres A) (k : A -> pres B) : pres B :=
  match m with POk a => k a | PErr => PErr | PUB => PUB | PFuel => PFuel end.
Notation "'let*' x ':=' m 'in' k" := (pbind m (fun x => k)) (at level 200, x pattern, m at level 100, k at level 200).

(** the flags, the tables *)
Record penv := {
  p_u : bool; p_n : bool;                       (* RJS_REGEXP_FL_U, RJS_REGEXP_FL_N *)
  id_start : Z -> bool; id_continue : Z -> bool;
  prop_lookup : list Z -> list Z -> option (Z * Z);  (* unicode_property_lookup *)
  junk : Z }.

(** RJS_RegExpParser: group_num, the names with the mark that a group has it, the
    groups (name index, path), the back references *)
Record pst := {
  s_groups : nat;
  s_names : list (list Z * bool);
  s_list : list (Z * list (nat * nat));
  s_brs : list Z }.

(** get_uc *)
Definition peek (s : list Z) : Z := match s with [] => -1 | c :: _ => c end.
Definition drop1 (s : list Z) : list Z := match s with [] => [] | _ :: r => r end.

Definition is_xdigit (c : Z) : bool :=
  ((48 <=? c) && (c <=? 57)) || ((97 <=? c) && (c <=? 102)) || ((65 <=? c) && (c <=? 70)).
Definition hexval (c : Z) : Z :=
  if (97 <=? c) && (c <=? 102) then c - 97 + 10 else if (65 <=? c) && (c <=? 70) then c - 65 + 10 else c - 48.
Definition is_alpha (c : Z) : bool := ((97 <=? c) && (c <=? 122)) || ((65 <=? c) && (c <=? 90)).

(** parse_uc_escape, rjs_regexp.c:469-489 *)
Fixpoint hex4 (k : nat) (v : Z) (s : list Z) : pres (Z * list Z) :=
  match k with
  | O => POk (v, s)
  | S k' => if is_xdigit (peek s) then hex4 k' (v * 16 + hexval (peek s)) (drop1 s) else PErr
  end.
(** the loop of \u{...}, rjs_regexp.c:499-526 *)
Fixpoint braced (v : Z) (seen : bool) (s : list Z) : pres (Z * list Z) :=
  match s with
  | [] => PErr
  | c :: r =>
      if c =? 125 then if seen then POk (v, r) else PErr
      else if is_xdigit c then
        let v' := v * 16 + hexval c in
        if 0x10ffff <? v' then PErr else braced v' true r
      else PErr
  end.
(** parse_uc_escape_seq, rjs_regexp.c:491-578 *)
Definition uc_seq (u : bool) (s : list Z) : pres (Z * list Z) :=
  if u then
    if peek s =? 123 then braced 0 false (drop1 s)
    else
      let* (c1, r) := hex4 4 0 s in
      if negb (is_lead c1) then POk (c1, r)
      else if (peek r =? 92) && (peek (drop1 r) =? 117) then
        let* (c2, r2) := hex4 4 0 (drop1 (drop1 r)) in
        if is_trail c2 then POk (pair_to_uc c1 c2, r2) else POk (c1, r)
      else POk (c1, r)
  else hex4 4 0 s.
(** parse_uc, rjs_regexp.c:580-598; RJS_INPUT_END is RJS_ERR *)
Definition uc (s : list Z) : pres (Z * list Z) :=
  if peek s =? 92 then
    if peek (drop1 s) =? 117 then uc_seq true (drop1 (drop1 s)) else PErr
  else if peek s =? -1 then PErr else POk (peek s, drop1 s).

Section parser.
Variable P : penv.

(** identity_escape, rjs_regexp.c:600-629; -1 is RJS_ERR *)
Definition syntax_char (c : Z) : bool :=
  existsb (Z.eqb c) [94; 36; 92; 46; 42; 43; 63; 40; 41; 91; 93; 123; 125; 124; 47].
Definition identity (c : Z) : pres Z :=
  if p_u P then if syntax_char c then POk c else PErr
  else if c =? -1 then PErr else POk c.

(** parse_prop, rjs_regexp.c:635-694: the name up to } or =, the value up to } *)
Definition ctype (alpha : bool) (c : Z) : pres bool :=
  if 255 <? c then PUB
  else POk (is_alpha c || (negb alpha && StrModel.is_digit c) || (c =? 95)).
Fixpoint prop_text (alpha : bool) (s : list Z) : pres (list Z * Z * list Z) :=
  match s with
  | [] => PErr
  | c :: r =>
      if (c =? 125) || (alpha && (c =? 61)) then POk ([], c, r)
      else
        let* ok := ctype alpha c in
        if ok then let* (t, e, r') := prop_text alpha r in POk (c :: t, e, r') else PErr
  end.
Definition prop_escape (s : list Z) : pres (Z * Z * list Z) :=
  let* (n, e, r) := prop_text true s in
  let* (v, r2) := (if e =? 61 then let* (v, _, r2) := prop_text false r in POk (v, r2) else POk ([], r)) in
  match prop_lookup P n v with
  | Some (p, v) => POk (p, v, r2)
  | None => PErr
  end.

(** parse_escape, rjs_regexp.c:697-831: [c] is the character after the backslash *)
Definition escape (c : Z) (s : list Z) : pres (cset * list Z) :=
  let id c s := let* d := identity c in POk (CNormal d, s) in
  if c =? 102 then POk (CNormal 12, s)
  else if c =? 110 then POk (CNormal 10, s)
  else if c =? 114 then POk (CNormal 13, s)
  else if c =? 116 then POk (CNormal 9, s)
  else if c =? 118 then POk (CNormal 11, s)
  else if c =? 100 then POk (Cd, s)
  else if c =? 115 then POk (Cs, s)
  else if c =? 119 then POk (Cw, s)
  else if c =? 68 then POk (CnotD, s)
  else if c =? 83 then POk (CnotS, s)
  else if c =? 87 then POk (CnotW, s)
  else if c =? 120 then
    let c1 := peek s in
    let c2 := peek (drop1 s) in
    if is_xdigit c1 && is_xdigit c2 then POk (CNormal (hexval c1 * 16 + hexval c2), drop1 (drop1 s))
    else id 120 s
  else if c =? 117 then let* (d, r) := uc_seq (p_u P) s in POk (CNormal d, r)
  else if c =? 99 then
    if is_alpha (peek s) then POk (CNormal (Z.land (peek s) 0x1f), drop1 s) else id 99 s
  else if c =? 48 then
    if StrModel.is_digit (peek s) then id 48 s else POk (CNormal 0, s)
  else if ((c =? 112) || (c =? 80)) && (peek s =? 123) then
    let* (p, v, r) := prop_escape (drop1 s) in
    POk (if c =? 112 then Cp p v else CnotP p v, r)
  else id c s.

(** parse_class_atom, rjs_regexp.c:910-936 *)
Definition class_atom (s : list Z) : pres (cset * list Z) :=
  if peek s =? 92 then
    if peek (drop1 s) =? 98 then POk (CNormal 8, drop1 (drop1 s)) else escape (peek (drop1 s)) (drop1 (drop1 s))
  else POk (CNormal (peek s), drop1 s).
(** the copy of the first member of the character data *)
Definition copied (k : cset) : cset :=
  match k with
  | Cp p _ => Cp p (junk P)
  | CnotP p _ => CnotP p (junk P)
  | _ => k
  end.
(** the loop of parse_class, rjs_regexp.c:955-1023 *)
Fixpoint class_items (fuel : nat) (s : list Z) : pres (list citem * list Z) :=
  match fuel with
  | O => PFuel
  | S f =>
      match s with
      | [] => PErr
      | c :: r =>
          if c =? 93 then POk ([], r)
          else
            let* (k, r1) := class_atom s in
            if peek r1 =? 45 then
              match k with
              | CNormal lo =>
                  let r2 := drop1 r1 in
                  if peek r2 =? 93 then
                    let* (l, r3) := class_items f r1 in POk (CItem (CNormal lo) :: l, r3)
                  else
                    let* (k2, r3) := class_atom r2 in
                    match k2 with
                    | CNormal hi =>
                        if (lo <? 0) || (hi <? 0) then PErr
                        else if hi <? lo then PErr
                        else let* (l, r4) := class_items f r3 in POk (CRange lo hi :: l, r4)
                    | _ => PErr
                    end
              | _ => PErr
              end
            else let* (l, r3) := class_items f r1 in POk (CItem (copied k) :: l, r3)
      end
  end.
(** parse_class, rjs_regexp.c:938-1026 *)
Definition class (s : list Z) : pres (atom * list Z) :=
  let neg := peek s =? 94 in
  let s1 := if neg then drop1 s else s in
  let* (l, r) := class_items (S (length s1)) s1 in
  POk (AClass neg l, r).

(** parse_regexp_number, rjs_regexp.c:1047-1075, and the number of a back reference,
    1272-1284: the digits *)
Fixpoint number (lim v : Z) (s : list Z) : pres (Z * list Z) :=
  match s with
  | c :: r =>
      if StrModel.is_digit c then
        let v' := v * 10 + (c - 48) in
        if lim <? v' then PUB else number lim v' r
      else POk (v, s)
  | [] => POk (v, s)
  end.
Definition int_max : Z := 2 ^ 31 - 1.
Definition int64_max : Z := 2 ^ 63 - 1.
Definition decimal (s : list Z) : pres (Z * list Z) :=
  if StrModel.is_digit (peek s) then number int64_max (peek s - 48) (drop1 s) else PErr.

(** parse_group_name, rjs_regexp.c:833-908: the characters up to > *)
Fixpoint name_rest (fuel : nat) (s : list Z) : pres (list Z * list Z) :=
  match fuel with
  | O => PFuel
  | S f =>
      if peek s =? 62 then POk ([], drop1 s)
      else if peek s =? -1 then PErr
      else
        let* (c, r) := uc s in
        if id_continue P c then let* (l, r2) := name_rest f r in POk (c :: l, r2) else PErr
  end.
Definition name (s : list Z) : pres (list Z * list Z) :=
  if peek s =? 60 then
    let* (c, r) := uc (drop1 s) in
    if id_start P c then
      let* (l, r2) := name_rest (S (length r)) r in POk (c :: l, r2)
    else PErr
  else PErr.
Definition name_eqb (a b : list Z) : bool := if list_eq_dec Z.eq_dec a b then true else false.
Fixpoint name_index (l : list (list Z * bool)) (n : list Z) : option nat :=
  match l with
  | [] => None
  | (m, _) :: r => if name_eqb m n then Some O else option_map S (name_index r n)
  end.
(** the name entry, added if new; [def]: a group has the name *)
Fixpoint mark (l : list (list Z * bool)) (i : nat) : list (list Z * bool) :=
  match l, i with
  | [], _ => []
  | (m, _) :: r, O => (m, true) :: r
  | x :: r, S j => x :: mark r j
  end.
Definition intern (st : pst) (n : list Z) (def : bool) : nat * pst :=
  match name_index (s_names st) n with
  | Some i =>
      (i, {| s_groups := s_groups st; s_names := if def then mark (s_names st) i else s_names st;
             s_list := s_list st; s_brs := s_brs st |})
  | None =>
      (length (s_names st),
       {| s_groups := s_groups st; s_names := s_names st ++ [(n, def)];
          s_list := s_list st; s_brs := s_brs st |})
  end.

(** terms_both_participate, rjs_regexp.c:1077-1136 *)
Fixpoint both (p q : list (nat * nat)) : bool :=
  match p, q with
  | (a, t) :: p', (b, u) :: q' =>
      if (a =? b)%nat then if (t =? u)%nat then both p' q' else true else false
  | _, _ => true
  end.
Definition dup_name (st : pst) (i : nat) (path : list (nat * nat)) : bool :=
  existsb (fun g => (fst g =? Z.of_nat i) && both (snd g) path) (s_list st).

(** the quantifier, rjs_regexp.c:1323-1387: minimum, maximum, greedy *)
Definition lazy_mark (s : list Z) : bool * list Z :=
  if peek s =? 63 then (false, drop1 s) else (true, s).
Definition quantifier (s : list Z) : pres (nat * option nat * bool * list Z) :=
  let fin mn mx r := let '(g, r') := lazy_mark r in POk (mn, mx, g, r') in
  let c := peek s in
  if c =? 63 then fin O (Some 1%nat) (drop1 s)
  else if c =? 43 then fin 1%nat None (drop1 s)
  else if c =? 42 then fin O None (drop1 s)
  else if c =? 123 then
    let* (mn, r) := decimal (drop1 s) in
    if peek r =? 44 then
      let r1 := drop1 r in
      if peek r1 =? 125 then fin (Z.to_nat mn) None (drop1 r1)
      else
        let* (mx, r2) := decimal r1 in
        if mx <? mn then PErr
        else if peek r2 =? 125 then fin (Z.to_nat mn) (Some (Z.to_nat mx)) (drop1 r2)
        else PErr
    else if peek r =? 125 then fin (Z.to_nat mn) (Some (Z.to_nat mn)) (drop1 r)
    else PErr
  else POk (1%nat, Some 1%nat, true, s).

Definition open_group (st : pst) : pst :=
  {| s_groups := S (s_groups st); s_names := s_names st; s_list := s_list st; s_brs := s_brs st |}.
Definition add_group (st : pst) (ni : Z) (path : list (nat * nat)) : pst :=
  {| s_groups := s_groups st; s_names := s_names st; s_list := s_list st ++ [(ni, path)]; s_brs := s_brs st |}.
Definition add_br (st : pst) (v : Z) : pst :=
  {| s_groups := s_groups st; s_names := s_names st; s_list := s_list st; s_brs := s_brs st ++ [v] |}.
Definition close_paren (s : list Z) : pres (list Z) := if peek s =? 41 then POk (drop1 s) else PErr.

(** parse_term, rjs_regexp.c:1138-1392, in two parts: up to the quantifier (with is_atom), and
    the quantifier; parse_alter, 1394-1424; parse_pattern, 1426-1448; [path] is that of
    the terminal, or of the terminal around *)
Fixpoint p_atom (fuel : nat) (path : list (nat * nat)) (s : list Z) (st : pst) {struct fuel}
    : pres (atom * bool * list Z * pst) :=
  match fuel with
  | O => PFuel
  | S f =>
      let gs := s_groups st in
      let sub (mk : pattern -> atom) (is_atom : bool) (s : list Z) (st : pst) :=
        let* (p, r, st') := p_pat f path O s st in
        let* r' := close_paren r in
        POk (mk p, is_atom, r', st') in
      let c := peek s in
      let r := drop1 s in
      if c =? 46 then POk (AAll, true, r, st)
      else if c =? 94 then POk (ALineStart, false, r, st)
      else if c =? 36 then POk (ALineEnd, false, r, st)
      else if c =? 91 then let* (a, r') := class r in POk (a, true, r', st)
      else if c =? 40 then
        if peek r =? 63 then
          let c := peek (drop1 r) in
          let r1 := drop1 (drop1 r) in
          if c =? 58 then sub APat true r1 st
          else if c =? 61 then sub (ALook true false) false r1 st
          else if c =? 33 then sub (ALook true true) false r1 st
          else if c =? 60 then
            if peek r1 =? 61 then sub (ALook false false) false (drop1 r1) st
            else if peek r1 =? 33 then sub (ALook false true) false (drop1 r1) st
            else
              let st1 := open_group st in
              let* (n, r2) := name (drop1 r) in
              let '(i, st2) := intern st1 n true in
              if dup_name st2 i path then PErr
              else sub (AGroup gs) true r2 (add_group st2 (Z.of_nat i) path)
          else PErr
        else sub (AGroup gs) true r (add_group (open_group st) (-1) path)
      else if c =? 92 then
        let c := peek r in
        let r1 := drop1 r in
        if c =? 98 then POk (AWordB, false, r1, st)
        else if c =? 66 then POk (ANotWordB, false, r1, st)
        else if (49 <=? c) && (c <=? 57) then
          let* (v, r2) := number int_max (c - 48) r1 in
          POk (ABack (Z.to_nat v), true, r2, add_br st v)
        else if p_n P && (c =? 107) then
          let* (n, r2) := name r1 in
          let '(i, st2) := intern st n false in
          POk (AName (Z.of_nat i), true, r2, st2)
        else let* (k, r2) := escape c r1 in POk (AChar k, true, r2, st)
      else if existsb (Z.eqb c) [63; 42; 43; 124; 123; 41; 93; 125] then PErr
      else POk (AChar (CNormal c), true, r, st)
  end
with p_term (fuel : nat) (path : list (nat * nat)) (s : list Z) (st : pst) {struct fuel}
    : pres (term * list Z * pst) :=
  match fuel with
  | O => PFuel
  | S f =>
      let* (a, is_atom, r, st') := p_atom f path s st in
      let* (mn, mx, g, r') :=
        (if is_atom : bool then quantifier r else POk (1%nat, Some 1%nat, true, r)) in
      POk (Term a mn mx (s_groups st) (s_groups st') g, r', st')
  end
with p_alt (fuel : nat) (path : list (nat * nat)) (ai ti : nat) (s : list Z) (st : pst) {struct fuel}
    : pres (alt * list Z * pst) :=
  match fuel with
  | O => PFuel
  | S f =>
      let c := peek s in
      if (c =? 124) || (c =? -1) || (c =? 41) then POk ([], s, st)
      else
        let* (t, r, st1) := p_term f (path ++ [(ai, ti)]) s st in
        let* (l, r2, st2) := p_alt f path ai (S ti) r st1 in
        POk (t :: l, r2, st2)
  end
with p_pat (fuel : nat) (path : list (nat * nat)) (ai : nat) (s : list Z) (st : pst) {struct fuel}
    : pres (pattern * list Z * pst) :=
  match fuel with
  | O => PFuel
  | S f =>
      let* (l, r, st1) := p_alt f path ai O s st in
      if peek r =? 124 then
        let* (p, r2, st2) := p_pat f path (S ai) (drop1 r) st1 in
        POk (l :: p, r2, st2)
      else POk ([l], r, st1)
  end.

(** parse_regexp, rjs_regexp.c:1450-1487 *)
Definition empty_st : pst := {| s_groups := 1; s_names := []; s_list := []; s_brs := [] |}.
Definition parse (s : list Z) : pres (pattern * pst) :=
  let* (p, r, st) := p_pat (4 * length s + 4) [] O s empty_st in
  match r with
  | _ :: _ => PErr
  | [] =>
      if existsb (fun v => Z.of_nat (s_groups st) <=? v) (s_brs st) then PErr
      else if existsb (fun n => negb (snd n)) (s_names st) then PErr
      else POk (p, st)
  end.
End parser.

(** rjs_regexp_initialize, rjs_regexp.c:1707-1718: a second time with the flag n if
    there are names *)
Definition with_n (P : penv) : penv :=
  {| p_u := p_u P; p_n := true; id_start := id_start P; id_continue := id_continue P;
     prop_lookup := prop_lookup P; junk := junk P |}.
Definition compile (P : penv) (s : list Z) : pres (pattern * pst) :=
  let* (p, st) := parse P s in
  if negb (p_n P) && negb (match s_names st with [] => true | _ => false end) then parse (with_n P) s
  else POk (p, st).
(** gen_regexp, rjs_regexp.c:1553-1568: the name of each group; the one of the group 0 is not
    written *)
Definition names_of (st : pst) (first : Z) : list Z := first :: map fst (s_list st).

(** gen_source, rjs_regexp.c:1490-1532: the text of the property source, code units *)
Definition gen_source (src : list Z) : list Z :=
  match src with
  | [] => [40; 63; 58; 41]
  | _ => flat_map (fun c => if c =? 10 then [92; 110] else if c =? 13 then [92; 114] else if c =? 47 then [92; 47] else [c]) src
  end.
(** the flags, rjs_regexp.c:1668-1703: d g i m s u y, each at most once *)
Fixpoint flags (acc : list Z) (f : list Z) : option (list Z) :=
  match f with
  | [] => Some acc
  | c :: r =>
      if existsb (Z.eqb c) [100; 103; 105; 109; 115; 117; 121] then
        if existsb (Z.eqb c) acc then None else flags (acc ++ [c]) r
      else None
  end.
