(** The pattern semantics of ECMAScript (22.2.2, Runtime Semantics: CompilePattern),
    written with matchers and continuations as in the standard.  Only the tree of
    a pattern comes from RegModel.v.

    An index counts characters of [input]: code units, or code points with the
    flag u.  A state is an index and the captures.  [Out] is the answer of the
    loop of a quantifier that ran out of fuel; the fuel is chosen large enough,
    and the theorems show that it never occurs.

    With [lax] = true the loop of a quantifier treats an iteration that matched
    the empty string differently: where the standard fails, it goes on behind the
    loop, and it does so from the last mandatory iteration on. *)
From Coq Require Import ZArith List Bool Arith.
Import ListNotations.
From Verif Require Import RegModel.
Local Open Scope nat_scope.

Definition caps := list (option (nat * nat)).
Record state := St { e : nat; cs : caps }.
Inductive mr := Failure | Found (x : state) | Out.
Definition cont := state -> mr.
Definition matcher := state -> cont -> mr.
Notation "a 'orelse' b" := (match a with Failure => b | r => r end) (at level 60, right associativity).

Definition cap (l : caps) (i : nat) : option (nat * nat) := nth i l None.
Fixpoint set_cap (l : caps) (i : nat) (r : option (nat * nat)) : caps :=
  match l, i with
  | [], _ => []
  | _ :: q, O => r :: q
  | a :: q, S j => a :: set_cap q j r
  end.
(** the captures of the groups [gs..ge) become undefined *)
Definition clear_caps (gs ge : nat) (l : caps) : caps :=
  map (fun i => if (gs <=? i) && (i <? ge) then None else cap l i) (seq 0 (length l)).

(** what the standard calls the Input, the character tests, Canonicalize and the flag m *)
Record world := {
  input : list Z;
  member : atom -> Z -> bool;      (* the character sets of a character, . and a class *)
  canon : Z -> Z;
  wordchar : Z -> bool;
  multiline : bool;
  ngroups : nat;
  names : list Z }.

(** RepeatMatcher, 22.2.2.3.1 *)
Fixpoint repeat_matcher (lax : bool) (fuel : nat) (m : matcher) (mn : nat) (mx : option nat)
    (greedy : bool) (gs ge : nat) (x : state) (c : cont) {struct fuel} : mr :=
  match fuel with
  | O => Out
  | S fuel =>
      if match mx with Some O => true | _ => false end then c x
      else
        let d (y : state) :=
          if (if lax then mn <=? 1 else mn =? 0) && (e y =? e x)
          then if lax then c y else Failure
          else repeat_matcher lax fuel m (mn - 1)
                 (match mx with Some k => Some (k - 1) | None => None end) greedy gs ge y c in
        let xr := St (e x) (clear_caps gs ge (cs x)) in
        if negb (mn =? 0) then m xr d
        else if greedy then m xr d orelse c x
        else c x orelse m xr d
  end.

Section matchers.
  Variables (W : world) (lax : bool).
  Definition inlen : nat := length (input W).
  Definition char_at (i : nat) : Z := nth i (input W) 0%Z.

  (** CharacterSetMatcher, 22.2.2.7.1 *)
  Definition set_matcher (a : atom) (fwd : bool) : matcher := fun x c =>
    if fwd then
      if e x <? inlen then
        if member W a (char_at (e x)) then c (St (e x + 1) (cs x)) else Failure
      else Failure
    else
      match e x with
      | O => Failure
      | S i => if member W a (char_at i) then c (St i (cs x)) else Failure
      end.
  (** IsWordChar, 22.2.2.4.1, of the character before the index and of the one at it *)
  Definition word_before (i : nat) : bool :=
    match i with O => false | S j => wordchar W (char_at j) end.
  Definition word_at (i : nat) : bool := (i <? inlen) && wordchar W (char_at i).
  (** CompileAssertion, 22.2.2.4 *)
  Definition assertion (b : bool) : matcher := fun x c => if b then c x else Failure.
  Definition line_terminator (c : Z) : bool := existsb (Z.eqb c) [0x0a; 0x0d; 0x2028; 0x2029]%Z.
  Definition at_start (i : nat) : bool :=
    match i with O => true | S j => multiline W && line_terminator (char_at j) end.
  Definition at_end (i : nat) : bool :=
    (inlen <=? i) || (multiline W && line_terminator (char_at i)).
  (** BackreferenceMatcher, 22.2.2.7.2: [r] is the capture *)
  Definition back_matcher (r : option (nat * nat)) (fwd : bool) : matcher := fun x c =>
    match r with
    | None => c x
    | Some (rs, re) =>
        let len := re - rs in
        if fwd then
          if e x + len <=? inlen then
            if forallb (fun i => Z.eqb (canon W (char_at (rs + i))) (canon W (char_at (e x + i)))) (seq 0 len)
            then c (St (e x + len) (cs x)) else Failure
          else Failure
        else
          if len <=? e x then
            if forallb (fun i => Z.eqb (canon W (char_at (rs + i))) (canon W (char_at (e x - len + i)))) (seq 0 len)
            then c (St (e x - len) (cs x)) else Failure
          else Failure
    end.
  (** the capture of the participating group of a name *)
  Fixpoint named_cap (l : caps) (ns : list Z) (nid : Z) : option (nat * nat) :=
    match l, ns with
    | r :: l', n :: ns' =>
        if Z.eqb n nid then match r with Some _ => r | None => named_cap l' ns' nid end
        else named_cap l' ns' nid
    | _, _ => None
    end.

  (** an Alternative is its terms in a row, 22.2.2.3 *)
  Fixpoint in_row (fwd : bool) (ms : list matcher) : matcher :=
    match ms with
    | [] => fun x c => c x
    | m :: r =>
        if fwd then fun x c => m x (fun y => in_row fwd r y c)
        else fun x c => in_row fwd r x (fun y => m y c)
    end.
  (** a Disjunction tries its alternatives in order *)
  Fixpoint in_turn (ms : list matcher) : matcher :=
    match ms with
    | [] => fun x c => c x
    | [m] => m
    | m :: r => fun x c => m x c orelse in_turn r x c
    end.

  (** CompileAtom 22.2.2.7, CompileAssertion 22.2.2.4, CompileSubpattern 22.2.2.3; a
      quantifier with the bounds 1 and 1 stands for its absence *)
  Fixpoint m_atom (a : atom) (fwd : bool) {struct a} : matcher := fun x c =>
    match a with
    | AChar _ | AAll | AClass _ _ => set_matcher a fwd x c
    | ALineStart => assertion (at_start (e x)) x c
    | ALineEnd => assertion (at_end (e x)) x c
    | AWordB => assertion (negb (Bool.eqb (word_before (e x)) (word_at (e x)))) x c
    | ANotWordB => assertion (Bool.eqb (word_before (e x)) (word_at (e x))) x c
    | ABack id => back_matcher (cap (cs x) id) fwd x c
    | AName nid => back_matcher (named_cap (cs x) (names W) nid) fwd x c
    | APat p => in_turn (map (fun l => in_row fwd (map (fun t => m_term t fwd) l)) p) x c
    | AGroup idx p =>
        in_turn (map (fun l => in_row fwd (map (fun t => m_term t fwd) l)) p) x (fun y =>
          c (St (e y) (set_cap (cs y) idx (Some (Nat.min (e x) (e y), Nat.max (e x) (e y))))))
    | ALook ahead neg p =>
        match in_turn (map (fun l => in_row ahead (map (fun t => m_term t ahead) l)) p) x Found with
        | Out => Out
        | Found y => if neg then Failure else c (St (e x) (cs y))
        | Failure => if neg then c x else Failure
        end
    end
  with m_term (t : term) (fwd : bool) {struct t} : matcher := fun x c =>
    match t with
    | Term a mn mx gs ge g =>
        match mn, mx with
        | 1, Some 1 => m_atom a fwd x c
        | _, _ => repeat_matcher lax (mn + inlen + 2) (m_atom a fwd) mn mx g gs ge x c
        end
    end.
  Definition m_terms (l : list term) (fwd : bool) : matcher := in_row fwd (map (fun t => m_term t fwd) l).
  Definition m_pat (p : pattern) (fwd : bool) : matcher := in_turn (map (fun l => m_terms l fwd) p).

  (** CompilePattern 22.2.2.2: match at an index, all captures undefined *)
  Definition m_match (p : pattern) (i : nat) : mr :=
    m_pat p true (St i (repeat None (ngroups W))) Found.
End matchers.

(** the groups are numbered by their opening parenthesis, each term knows the groups
    inside of it, bounds are in order and names have an index; the number after the
    last group of the pattern *)
Fixpoint num_atom (a : atom) (g : nat) {struct a} : option nat :=
  let num_alts (p : pattern) (g : nat) :=
    fold_left (fun o l =>
      fold_left (fun o t => match o with Some g => num_term t g | None => None end) l o) p (Some g) in
  match a with
  | AGroup idx p => if idx =? g then num_alts p (S g) else None
  | APat p | ALook _ _ p => num_alts p g
  | AName nid => if (nid <? 0)%Z then None else Some g
  | _ => Some g
  end
with num_term (t : term) (g : nat) {struct t} : option nat :=
  match t with
  | Term a mn mx gs ge _ =>
      if (gs =? g) && match mx with Some m => mn <=? m | None => true end then
        match num_atom a g with
        | Some g' => if g' =? ge then Some g' else None
        | None => None
        end
      else None
  end.
Definition num_terms (l : list term) (g : option nat) : option nat :=
  fold_left (fun o t => match o with Some g => num_term t g | None => None end) l g.
Definition num_pat (p : pattern) (g : option nat) : option nat :=
  fold_left (fun o l => num_terms l o) p g.
Definition well_numbered (p : pattern) (n : nat) : Prop := num_pat p (Some 1) = Some n.

(** the code points of a string (11.1.4): a lead unit with a trail unit behind it is one *)
Definition lead (c : Z) : bool := (0xd800 <=? c)%Z && (c <=? 0xdbff)%Z.
Definition trail (c : Z) : bool := (0xdc00 <=? c)%Z && (c <=? 0xdfff)%Z.
Fixpoint code_points (s : list Z) : list Z :=
  match s with
  | [] => []
  | a :: r =>
      match r with
      | b :: q =>
          if lead a && trail b then (0x10000 + (a - 0xd800) * 1024 + (b - 0xdc00))%Z :: code_points q
          else a :: code_points r
      | [] => [a]
      end
  end.
(** the code units of the first characters *)
Definition width (c : Z) : nat := if (c <? 0x10000)%Z then 1 else 2.
Definition unit_index (l : list Z) (i : nat) : nat := list_sum (map width (firstn i l)).
Definition code_unit (c : Z) : Prop := (0 <= c <= 0xffff)%Z.

(** * what a pattern without back references says
    [sat_pat p fwd i j]: the text from [i] to [j] is matched by [p]. *)
Fixpoint times (k : nat) (R : nat -> nat -> Prop) (i j : nat) : Prop :=
  match k with
  | O => j = i
  | S k' => exists h, R i h /\ times k' R h j
  end.
Fixpoint sat_row (fwd : bool) (Rs : list (nat -> nat -> Prop)) (i j : nat) : Prop :=
  match Rs with
  | [] => j = i
  | R :: r => if fwd then exists h, R i h /\ sat_row fwd r h j else exists h, sat_row fwd r i h /\ R h j
  end.
Fixpoint sat_turn (Rs : list (nat -> nat -> Prop)) (i j : nat) : Prop :=
  match Rs with
  | [] => j = i
  | [R] => R i j
  | R :: r => R i j \/ sat_turn r i j
  end.
Section sat.
  Variable W : world.
  Fixpoint sat_atom (a : atom) (fwd : bool) (i j : nat) {struct a} : Prop :=
    match a with
    | AChar _ | AAll | AClass _ _ =>
        if fwd then i < inlen W /\ j = i + 1 /\ member W a (char_at W i) = true
        else i = j + 1 /\ member W a (char_at W j) = true
    | ALineStart => j = i /\ at_start W i = true
    | ALineEnd => j = i /\ at_end W i = true
    | AWordB => j = i /\ word_before W i <> word_at W i
    | ANotWordB => j = i /\ word_before W i = word_at W i
    | ABack _ | AName _ => False
    | APat p | AGroup _ p => sat_turn (map (fun l => sat_row fwd (map (fun t => sat_term t fwd) l)) p) i j
    | ALook ahead neg p =>
        let inside := exists h, sat_turn (map (fun l => sat_row ahead (map (fun t => sat_term t ahead) l)) p) i h in
        j = i /\ (if neg then ~ inside else inside)
    end
  with sat_term (t : term) (fwd : bool) (i j : nat) {struct t} : Prop :=
    match t with
    | Term a mn mx _ _ _ =>
        exists k, mn <= k /\ match mx with Some m => k <= m | None => True end /\ times k (sat_atom a fwd) i j
    end.
  Definition sat_pat (p : pattern) (fwd : bool) : nat -> nat -> Prop :=
    sat_turn (map (fun l => sat_row fwd (map (fun t => sat_term t fwd) l)) p).
End sat.

(** no back references *)
Fixpoint no_back (a : atom) : bool :=
  match a with
  | ABack _ | AName _ => false
  | APat p | AGroup _ p | ALook _ _ p => forallb (forallb no_back_t) p
  | _ => true
  end
with no_back_t (t : term) : bool := match t with Term a _ _ _ _ _ => no_back a end.
(** matches at least one character *)
Fixpoint consuming (a : atom) : bool :=
  match a with
  | AChar _ | AAll | AClass _ _ => true
  | APat p | AGroup _ p =>
      negb (match p with [] => true | _ => false end) && forallb (existsb consuming_t) p
  | _ => false
  end
with consuming_t (t : term) : bool :=
  match t with Term a mn _ _ _ _ => (1 <=? mn) && consuming a end.
(** the atom of a quantifier with a choice of the number of iterations matches at
    least one character *)
Fixpoint steady (a : atom) : bool :=
  match a with
  | APat p | AGroup _ p | ALook _ _ p => forallb (forallb steady_t) p
  | _ => true
  end
with steady_t (t : term) : bool :=
  match t with
  | Term a mn mx _ _ _ =>
      steady a && (match mx with Some m => m =? mn | None => false end || consuming a)
  end.
