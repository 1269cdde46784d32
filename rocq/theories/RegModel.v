(** Model of the regular expression matcher, src/lib/rjs_regexp.c:1826-2800.

    The compiled pattern is the tree built by the parser (rjs_regexp.c:47-160).
    match_pattern, match_alter, match_term_list, match_term, match_atom and the
    jobs call each other only in tail position, so a call is a control state of a
    machine and one step of the machine is one call.  (match_atom maps the result
    of match_la_lb, which is RJS_REGEXP_NEXT or RJS_REGEXP_REJECT, to itself.)
    The job stack is a list, its bottom first; a job holds the fields its operation
    reads; [nextp] and [vsp] are indices, None for -1.  The vector stack is a block
    of memory with the number of its items in use; the block of an earlier match
    is used again, so its first content is arbitrary.  A pointer to a terminal is
    its position in the list of the alternative.  [Bad]: an index outside of an
    array.  ICU's u_foldCase, u_strToUpper and property lookup are functions of
    the environment.
    Not modelled: allocation failure, the overflow of the int64_t counter (more
    than 2^63 iterations), lists longer than size_t. *)
From Coq Require Import ZArith List Bool Arith.
Import ListNotations.
From Verif Require StrModel.
Local Open Scope Z_scope.

(** RJS_RegExpChar, rjs_regexp.c:34-64: a character or a class escape *)
Inductive cset :=
  | CNormal (c : Z)
  | Cs | Cd | Cw | CnotS | CnotD | CnotW
  | Cp (prop value : Z) | CnotP (prop value : Z).
(** RJS_RegExpClassAtom, rjs_regexp.c:67-76: a range has the type -1 *)
Inductive citem := CItem (c : cset) | CRange (lo hi : Z).

(** RJS_RegExpTerm, rjs_regexp.c:84-160: [mn], [mx] (None for -1), the groups
    [gs..ge) inside of the terminal *)
Inductive atom :=
  | AChar (c : cset)
  | AAll
  | AClass (neg : bool) (items : list citem)
  | ALineStart | ALineEnd | AWordB | ANotWordB
  | ABack (id : nat)
  | AName (nid : Z)
  | APat (p : list (list term))
  | AGroup (idx : nat) (p : list (list term))
  | ALook (ahead neg : bool) (p : list (list term))
with term :=
  | Term (a : atom) (mn : nat) (mx : option nat) (gs ge : nat) (greedy : bool).
Notation alt := (list term).
Notation pattern := (list (list term)).
Definition t_atom (t : term) := let '(Term a _ _ _ _ _) := t in a.
Definition t_mn (t : term) := let '(Term _ m _ _ _ _) := t in m.
Definition t_mx (t : term) := let '(Term _ _ m _ _ _) := t in m.
Definition t_gs (t : term) := let '(Term _ _ _ g _ _) := t in g.
Definition t_ge (t : term) := let '(Term _ _ _ _ g _) := t in g.
Definition t_greedy (t : term) := let '(Term _ _ _ _ _ g) := t in g.

(** the flags, the Unicode data and the subject string *)
Record env := {
  fl_i : bool; fl_u : bool; fl_m : bool; fl_s : bool;
  fold_case : Z -> Z;                (* rjs_uchar_fold_case *)
  to_upper : Z -> list Z;            (* rjs_uchars_to_upper of one code unit *)
  prop_match : Z -> Z -> Z -> bool;  (* unicode_property_match *)
  str : list Z;
  group_num : nat;                   (* with the group 0, the whole match *)
  group_names : list Z }.            (* the name of each group, -1: none *)

(** canonicalize, rjs_regexp.c:1826-1849 *)
Definition canonicalize (E : env) (c : Z) : Z :=
  if fl_i E && fl_u E then fold_case E c
  else if fl_i E then match to_upper E c with [u] => u | _ => c end
  else c.

(** rjs_uchar_is_alnum, include/rjs_uchar.h:82-99; rjs_uchar_is_line_terminator, 157-161 *)
Definition is_alnum (c : Z) : bool :=
  ((97 <=? c) && (c <=? 122)) || ((65 <=? c) && (c <=? 90)) || StrModel.is_digit c.
Definition is_line_terminator (c : Z) : bool :=
  (c =? 0x0a) || (c =? 0x0d) || (c =? 0x2028) || (c =? 0x2029).
(** include/rjs_uchar.h:313-344 *)
Definition is_lead (c : Z) : bool := (0xd800 <=? c) && (c <=? 0xdbff).
Definition is_trail (c : Z) : bool := (0xdc00 <=? c) && (c <=? 0xdfff).
Definition pair_to_uc (l t : Z) : Z := Z.lor (Z.shiftl (l - 0xd800) 10) (t - 0xdc00) + 0x10000.

(** get_char, rjs_regexp.c:1872-1882 *)
Definition get_char (E : env) (p : Z) : Z :=
  if p <? 0 then -1
  else if Z.of_nat (length (str E)) <=? p then -1
  else nth (Z.to_nat p) (str E) 0.
Definition unit_at (E : env) (p : nat) : Z := nth p (str E) 0.

(** read_char, rjs_regexp.c:1885-1936: the character and the new position *)
Definition read_char (E : env) (rv : bool) (pos : nat) : option (Z * nat) :=
  if rv then
    match pos with
    | O => None
    | S q =>
        let c := unit_at E q in
        if (1 <? pos)%nat && fl_u E && is_trail c then
          let c2 := unit_at E (q - 1) in
          if is_lead c2 then Some (pair_to_uc c2 c, q - 1)%nat else Some (c, q)
        else Some (c, q)
    end
  else
    if (length (str E) <=? pos)%nat then None
    else
      let c := unit_at E pos in
      if (pos <? length (str E) - 1)%nat && fl_u E && is_lead c then
        let c2 := unit_at E (pos + 1) in
        if is_trail c2 then Some (pair_to_uc c c2, pos + 2)%nat else Some (c, pos + 1)%nat
      else Some (c, pos + 1)%nat.

(** is_word, rjs_regexp.c:1962-1967 *)
Definition is_word (c : Z) : bool := is_alnum c || (c =? 95).

(** match_char, rjs_regexp.c:2073-2116 *)
Definition match_char (E : env) (k : cset) (c : Z) : bool :=
  match k with
  | Cs => StrModel.is_white_space c
  | Cd => StrModel.is_digit c
  | Cw => is_word c
  | CnotS => negb (StrModel.is_white_space c)
  | CnotD => negb (StrModel.is_digit c)
  | CnotW => negb (is_word c)
  | CNormal d => canonicalize E c =? canonicalize E d
  | Cp p v => prop_match E p v (canonicalize E c)
  | CnotP p v => negb (prop_match E p v (canonicalize E c))
  end.
(** match_class_atom, rjs_regexp.c:2118-2135 *)
Definition match_class_atom (E : env) (a : citem) (c : Z) : bool :=
  match a with
  | CItem k => match_char E k c
  | CRange lo hi =>
      (canonicalize E lo <=? canonicalize E c) && (canonicalize E c <=? canonicalize E hi)
  end.
(** match_class, rjs_regexp.c:2137-2159 *)
Definition match_class (E : env) (neg : bool) (items : list citem) (c : Z) : bool :=
  if neg then negb (existsb (fun a => match_class_atom E a c) items)
  else existsb (fun a => match_class_atom E a c) items.

(** the position vector: the start of the group i at 2i, its end at 2i+1, -1: unset *)
Definition vget (v : list Z) (i : nat) : Z := nth i v (-1).
Fixpoint vset (v : list Z) (i : nat) (x : Z) : list Z :=
  match v, i with
  | [], _ => []
  | _ :: r, O => x :: r
  | a :: r, S j => a :: vset r j x
  end.
(** the loop of rjs_regexp.c:2216-2219, 2507-2510, 2600-2603 *)
Definition clear_vec (gs ge : nat) (v : list Z) : list Z :=
  fold_left (fun w i => vset (vset w (2 * i) (-1)) (2 * i + 1) (-1)) (seq gs (ge - gs)) v.

(** match_back_ref, rjs_regexp.c:2260-2329: the new position, None: no match *)
Definition same_unit (E : env) (a b : nat) : bool :=
  canonicalize E (unit_at E a) =? canonicalize E (unit_at E b).
Definition match_back_ref (E : env) (rv : bool) (pos : nat) (v : list Z) (id : nat) : option nat :=
  if (group_num E <=? id)%nat then Some pos
  else
    let s := vget v (2 * id) in
    let e := vget v (2 * id + 1) in
    if (s =? -1) || (e =? -1) then Some pos
    else
      let '(s, e) := if e <? s then (e, s) else (s, e) in
      let len := Z.to_nat (e - s) in
      let p2 := Z.to_nat s in
      if rv then
        if (pos <? len)%nat then None
        else if forallb (fun i => same_unit E (pos - len + i) (p2 + i)) (seq 0 len)
             then Some (pos - len)%nat else None
      else
        if (length (str E) <? pos + len)%nat then None
        else if forallb (fun i => same_unit E (pos + i) (p2 + i)) (seq 0 len)
             then Some (pos + len)%nat else None.
(** the loop of RJS_REGEXP_TERM_BR_NAME, rjs_regexp.c:2399-2409: the first group of
    the name with both positions set *)
Definition named_group (E : env) (v : list Z) (nid : Z) : option nat :=
  find (fun i => (nth i (group_names E) (-1) =? nid) &&
                 negb (vget v (2 * i) =? -1) && negb (vget v (2 * i + 1) =? -1))
       (seq 0 (group_num E)).

(** a pointer to a terminal in the list of its alternative *)
Record ptr := { before : list term; cur : term; after : list term }.
Definition first_ptr (rv : bool) (a : alt) : option ptr :=
  if rv then match rev a with
             | [] => None
             | t :: b => Some {| before := b; cur := t; after := [] |}
             end
  else match a with
       | [] => None
       | t :: b => Some {| before := []; cur := t; after := b |}
       end.
Definition next_ptr (rv : bool) (z : ptr) : option ptr :=
  if rv then match before z with
             | [] => None
             | t :: b => Some {| before := b; cur := t; after := cur z :: after z |}
             end
  else match after z with
       | [] => None
       | t :: b => Some {| before := cur z :: before z; cur := t; after := b |}
       end.

(** RJS_RegExpJob, rjs_regexp.c:206-218, by its operation *)
Inductive job :=
  | JSuccess
  | JOk
  | JGroupEnd (idx : nat) (np : option nat)
  | JLook (neg : bool) (gs ge : nat) (p : nat) (rv : bool) (np : option nat)
  | JGreedy (vsp : nat) (p : nat) (np : option nat)
  | JTerm (t : term) (cnt : nat) (p : nat) (np : option nat)
  | JLazy (vsp : nat) (t : term) (cnt : nat) (p : nat) (np : option nat)
  | JAlter (vsp : nat) (a : alt) (rest : pattern) (p : nat) (np : option nat)
  | JTermList (z : ptr) (np : option nat).
Definition job_next (j : job) : option nat :=
  match j with
  | JSuccess | JOk => None
  | JGroupEnd _ n | JLook _ _ _ _ _ n | JGreedy _ _ n | JTerm _ _ _ n
  | JLazy _ _ _ _ n | JAlter _ _ _ _ n | JTermList _ n => n
  end.
Definition job_vsp (j : job) : option nat :=
  match j with
  | JGreedy v _ _ | JLazy v _ _ _ _ | JAlter v _ _ _ _ => Some v
  | _ => None
  end.

(** RJS_RegExpResult, rjs_regexp.c:198-203 *)
Inductive result := Reject | Next | Accept | Success.
(** the call in progress; [KRes]: the head of the loop of match_regexp *)
Inductive ctl :=
  | KPat (p : pattern)
  | KAlter (a : alt) (rest : pattern)
  | KTerms (z : ptr)
  | KTerm (t : term) (cnt : nat) (p : option nat)
  | KAtom (t : term)
  | KRes (r : result).
(** RJS_RegExpCtxt, rjs_regexp.c:221-233 *)
Record cfg := Cfg {
  k : ctl; pos : nat; rv : bool; vec : list Z; nextp : option nat;
  jobs : list job; vmem : list Z; vnum : nat }.
Inductive out := Go (s : cfg) | Halt (found : bool) (v m : list Z) | Bad.

(** pop_job, rjs_regexp.c:2008-2019 *)
Fixpoint pop_last (l : list job) : option (list job * job) :=
  match l with
  | [] => None
  | [j] => Some ([], j)
  | j :: r => match pop_last r with Some (r', x) => Some (j :: r', x) | None => None end
  end.
(** push_vec and save_vec, rjs_regexp.c:2021-2038; restore_vec, 2040-2045 *)
Definition save (m : list Z) (n : nat) (v : list Z) : list Z :=
  firstn n m ++ v ++ skipn (n + length v) m.
Definition restore (m : list Z) (vsp len : nat) : option (list Z) :=
  if (vsp + len <=? length m)%nat then Some (firstn len (skipn vsp m)) else None.

(** the end of match_term and of job_non_greedy_loop: clear the groups from the
    second iteration on, then match_atom *)
Definition enter_atom (t : term) (cnt : nat) (s : cfg) : out :=
  if (1 <? cnt)%nat then
    if (2 * t_ge t <=? length (vec s))%nat || (t_ge t <=? t_gs t)%nat then
      Go (Cfg (KAtom t) (pos s) (rv s) (clear_vec (t_gs t) (t_ge t) (vec s)) (nextp s) (jobs s) (vmem s) (vnum s))
    else Bad
  else Go (Cfg (KAtom t) (pos s) (rv s) (vec s) (nextp s) (jobs s) (vmem s) (vnum s)).

Definition res (r : result) (s : cfg) : out :=
  Go (Cfg (KRes r) (pos s) (rv s) (vec s) (nextp s) (jobs s) (vmem s) (vnum s)).
Definition push (j : job) (s : cfg) : cfg :=
  Cfg (k s) (pos s) (rv s) (vec s) (nextp s) (jobs s ++ [j]) (vmem s) (vnum s).
(** push a job and make it the next one *)
Definition push_next (j : job) (s : cfg) : cfg :=
  Cfg (k s) (pos s) (rv s) (vec s) (Some (length (jobs s))) (jobs s ++ [j]) (vmem s) (vnum s).
(** push a job which has the vector saved at vnum *)
Definition push_saved (j : job) (s : cfg) : cfg :=
  Cfg (k s) (pos s) (rv s) (vec s) (nextp s) (jobs s ++ [j])
      (save (vmem s) (vnum s) (vec s)) (vnum s + length (vec s)).
Definition call (c : ctl) (s : cfg) : out :=
  Go (Cfg c (pos s) (rv s) (vec s) (nextp s) (jobs s) (vmem s) (vnum s)).

(** job_success 2058-2071, job_ok 2046-2056, job_group_end 2161-2176,
    job_la_lb_end 2199-2225, job_greedy_next 2429-2444, job_term 2446-2463,
    job_non_greedy_loop 2465-2514, job_alter 2607-2629, job_term_list 2631-2645;
    the job is popped or the next one, nextp already is its nextp *)
Definition run_job (s : cfg) (j : job) (r : result) : out :=
  let isnext := match r with Next => true | _ => false end in
  let isaccept := match r with Accept => true | _ => false end in
  let isreject := match r with Reject => true | _ => false end in
  match j with
  | JSuccess =>
      if isnext then
        if (2 <=? length (vec s))%nat then
          Go (Cfg (KRes Success) (pos s) (rv s) (vset (vec s) 1 (Z.of_nat (pos s))) (nextp s) (jobs s) (vmem s) (vnum s))
        else Bad
      else res r s
  | JOk => if isnext then res Accept s else res r s
  | JGroupEnd idx _ =>
      if isnext then
        if (2 * idx + 1 <? length (vec s))%nat then
          Go (Cfg (KRes Next) (pos s) (rv s) (vset (vec s) (2 * idx + 1) (Z.of_nat (pos s))) (nextp s) (jobs s) (vmem s) (vnum s))
        else Bad
      else res r s
  | JLook neg gs ge p v np =>
      let s1 := Cfg (k s) p v (vec s) np (jobs s) (vmem s) (vnum s) in
      if neg then
        if isreject then
          if (2 * ge <=? length (vec s))%nat || (ge <=? gs)%nat then
            Go (Cfg (KRes Next) p v (clear_vec gs ge (vec s)) np (jobs s) (vmem s) (vnum s))
          else Bad
        else res Reject s1
      else if isreject then res Reject s1 else res Next s1
  | JGreedy vsp p np =>
      let s1 := Cfg (k s) (pos s) (rv s) (vec s) np (jobs s) (vmem s) (vnum s) in
      if isaccept then res r s1
      else match restore (vmem s) vsp (length (vec s)) with
           | None => Bad
           | Some v => Go (Cfg (KRes Next) p (rv s) v np (jobs s) (vmem s) (vnum s))
           end
  | JTerm t cnt p _ => if isnext then call (KTerm t cnt (Some p)) s else res r s
  | JLazy vsp t cnt p np =>
      let s1 := Cfg (k s) (pos s) (rv s) (vec s) np (jobs s) (vmem s) (vnum s) in
      if isaccept then res r s1
      else match restore (vmem s) vsp (length (vec s)) with
           | None => Bad
           | Some v =>
               let s2 := Cfg (k s) p (rv s) v np (jobs s) (vmem s) (vnum s) in
               enter_atom t cnt (push_next (JTerm t (cnt + 1) p np) s2)
           end
  | JAlter vsp a rest p np =>
      let s1 := Cfg (k s) (pos s) (rv s) (vec s) np (jobs s) (vmem s) (vnum s) in
      if isaccept then res r s1
      else match restore (vmem s) vsp (length (vec s)) with
           | None => Bad
           | Some v => Go (Cfg (KAlter a rest) p (rv s) v np (jobs s) (vmem s) (vnum s))
           end
  | JTermList z _ => if isnext then call (KTerms z) s else res r s
  end.

(** match_atom, rjs_regexp.c:2331-2427, with match_group 2178-2197 and
    match_la_lb 2227-2258 *)
Definition atom_step (E : env) (t : term) (s : cfg) : out :=
  let read (test : Z -> bool) :=
    match read_char E (rv s) (pos s) with
    | None => res Reject s
    | Some (c, p) =>
        Go (Cfg (KRes (if test c then Next else Reject)) p (rv s) (vec s) (nextp s) (jobs s) (vmem s) (vnum s))
    end in
  let check (b : bool) := res (if b then Next else Reject) s in
  let prev := get_char E (Z.of_nat (pos s) - 1) in
  let here := get_char E (Z.of_nat (pos s)) in
  let jump (o : option nat) :=
    match o with
    | None => res Reject s
    | Some p => Go (Cfg (KRes Next) p (rv s) (vec s) (nextp s) (jobs s) (vmem s) (vnum s))
    end in
  match t_atom t with
  | AChar c => read (match_char E c)
  | AAll => read (fun c => fl_s E || negb (is_line_terminator c))
  | AClass neg items => read (match_class E neg items)
  | ALineStart => check ((prev =? -1) || (fl_m E && is_line_terminator prev))
  | ALineEnd => check ((here =? -1) || (fl_m E && is_line_terminator here))
  | AWordB => check (negb (Bool.eqb (is_word prev) (is_word here)))
  | ANotWordB => check (Bool.eqb (is_word prev) (is_word here))
  | ABack id => jump (match_back_ref E (rv s) (pos s) (vec s) id)
  | AName nid =>
      match named_group E (vec s) nid with
      | None => res Next s
      | Some i => jump (match_back_ref E (rv s) (pos s) (vec s) i)
      end
  | APat p => call (KPat p) s
  | AGroup idx p =>
      if (2 * idx + 1 <? length (vec s))%nat then
        let s1 := Cfg (k s) (pos s) (rv s) (vset (vec s) (2 * idx) (Z.of_nat (pos s))) (nextp s) (jobs s) (vmem s) (vnum s) in
        call (KPat p) (push_next (JGroupEnd idx (nextp s)) s1)
      else Bad
  | ALook ahead neg p =>
      let s1 := push (JLook neg (t_gs t) (t_ge t) (pos s) (rv s) (nextp s)) s in
      let s2 := push_next JOk s1 in
      Go (Cfg (KPat p) (pos s) (negb ahead) (vec s) (nextp s2) (jobs s2) (vmem s) (vnum s))
  end.

(** match_term, rjs_regexp.c:2516-2605 *)
Definition term_step (t : term) (cnt : nat) (p : option nat) (s : cfg) : out :=
  let mx0 := match t_mx t with Some O => true | _ => false end in
  if (t_mn t =? 0)%nat && mx0 then res Next s
  else
    let stop :=
      (t_mn t <? cnt)%nat &&
      (match t_mx t with Some m => (m <? cnt)%nat | None => false end ||
       ((1 <? cnt)%nat && match p with Some q => (q =? pos s)%nat | None => false end)) in
    if stop then res Next s
    else if (cnt <=? t_mn t)%nat then
      enter_atom t cnt (push_next (JTerm t (cnt + 1) (pos s) (nextp s)) s)
    else if t_greedy t then
      let s1 := push_saved (JGreedy (vnum s) (pos s) (nextp s)) s in
      enter_atom t cnt (push_next (JTerm t (cnt + 1) (pos s) (nextp s)) s1)
    else
      res Next (push_saved (JLazy (vnum s) t cnt (pos s) (nextp s)) s).

(** one call, or one turn of the loop of match_regexp, rjs_regexp.c:2771-2797 *)
Definition step (E : env) (s : cfg) : out :=
  match k s with
  | KPat [] => res Next s                            (* match_pattern, 2721-2732 *)
  | KPat (a :: rest) => call (KAlter a rest) s
  | KAlter a rest =>                                 (* match_alter, 2685-2719 *)
      let s1 := match rest with
                | [] => s
                | b :: r => push_saved (JAlter (vnum s) b r (pos s) (nextp s)) s
                end in
      match first_ptr (rv s) a with
      | None => res Next s1
      | Some z => call (KTerms z) s1
      end
  | KTerms z =>                                      (* match_term_list, 2647-2683 *)
      let s1 := match next_ptr (rv s) z with
                | None => s
                | Some z' => push_next (JTermList z' (nextp s)) s
                end in
      call (KTerm (cur z) 1 None) s1
  | KTerm t cnt p => term_step t cnt p s
  | KAtom t => atom_step E t s
  | KRes Success => Halt true (vec s) (vmem s)
  | KRes r =>
      match jobs s with
      | [] => Halt false (vec s) (vmem s)
      | _ =>
          match r with
          | Next =>
              match nextp s with
              | None => Bad
              | Some n =>
                  match nth_error (jobs s) n with
                  | None => Bad
                  | Some j =>
                      run_job (Cfg (k s) (pos s) (rv s) (vec s) (job_next j) (jobs s) (vmem s) (vnum s)) j Next
                  end
              end
          | _ =>
              match pop_last (jobs s) with
              | None => Bad
              | Some (js, j) =>
                  run_job (Cfg (k s) (pos s) (rv s) (vec s) (nextp s) js (vmem s)
                               (match job_vsp j with Some v => v | None => vnum s end)) j r
              end
          end
      end
  end.

(** match_regexp, rjs_regexp.c:2734-2800, at [p] with the memory [m] left by the
    last match; None: out of fuel *)
Definition start (E : env) (pat : pattern) (p : nat) (m : list Z) : cfg :=
  Cfg (KPat pat) p false (vset (repeat (-1) (2 * group_num E)) 0 (Z.of_nat p)) (Some 0%nat)
      [JSuccess] m 0.
Fixpoint run (E : env) (fuel : nat) (s : cfg) : option out :=
  match fuel with
  | O => None
  | S n => match step E s with Go s' => run E n s' | o => Some o end
  end.
