(** The grammar of patterns, ECMA-262 22.2.1 (without annex B), as a relation between a
    text and its tree.  [r] is the text behind.  [whole]: the whole grammar; without it
    the constructs of section "left out" of the comments are not derived. *)
From Coq Require Import ZArith List Bool.
Import ListNotations.
From Verif Require Import RegModel.
Local Open Scope Z_scope.

(** digits *)
Definition decd (c v : Z) : Prop := 48 <= c <= 57 /\ v = c - 48.
Definition hexd (c v : Z) : Prop :=
  decd c v \/ (97 <= c <= 102 /\ v = c - 87) \/ (65 <= c <= 70 /\ v = c - 55).
Definition value (base : Z) (ds : list Z) : Z := fold_left (fun a d => a * base + d) ds 0.
Definition hex_text (w : list Z) (v : Z) : Prop := exists ds, Forall2 hexd w ds /\ v = value 16 ds.
Definition dec_text (w : list Z) (v : Z) : Prop := exists ds, Forall2 decd w ds /\ v = value 10 ds.

Definition letter (c : Z) : Prop := 97 <= c <= 122 \/ 65 <= c <= 90.
Definition digit (c : Z) : Prop := 48 <= c <= 57.
(** SyntaxCharacter: ^ $ \ . * + ? ( ) [ ] { } | *)
Definition syntax (c : Z) : Prop := In c [94; 36; 92; 46; 42; 43; 63; 40; 41; 91; 93; 123; 125; 124].
Definition starts (P : Z -> Prop) (r : list Z) : Prop := match r with [] => False | c :: _ => P c end.

Definition lead_unit (c : Z) : Prop := 0xd800 <= c <= 0xdbff.
Definition trail_unit (c : Z) : Prop := 0xdc00 <= c <= 0xdfff.

Record tables := {
  t_start : Z -> Prop; t_continue : Z -> Prop;
  t_prop : list Z -> list Z -> Z -> Z -> Prop }.
(** what is known of the tables of identifier characters *)
Definition ascii_tables (T : tables) : Prop :=
  (forall c, t_continue T c -> 0 <= c) /\ (forall c, t_start T c -> t_continue T c) /\
  (forall c, 0 <= c < 128 -> (t_continue T c <-> letter c \/ digit c \/ c = 36 \/ c = 95)) /\
  (forall c, 0 <= c < 128 -> (t_start T c <-> letter c \/ c = 36 \/ c = 95)).

(** the state while the text is read: the number of the next group, the names in the
    order of their first mention, the names of groups, the numbers referred to *)
Record gst := G { g_next : nat; g_names : list (list Z); g_defs : list (list Z); g_refs : list Z }.

Section grammar.
  Variables (u n whole : bool) (T : tables).

  (** RegExpUnicodeEscapeSequence[+U], behind the u.  Left out: a lead unit with
      \u{...} behind it *)
  Definition alone (r : list Z) : Prop :=
    ~ (exists q, r = 92 :: 117 :: q) \/
    (exists w v q, r = 92 :: 117 :: w ++ q /\ length w = 4%nat /\ hex_text w v /\ ~ trail_unit v) \/
    (whole = true /\ exists q, r = 92 :: 117 :: 123 :: q).
  Inductive ucode (r : list Z) : list Z -> Z -> Prop :=
    | u_one : forall w v, length w = 4%nat -> hex_text w v -> (lead_unit v -> alone r) -> ucode r w v
    | u_pair : forall w l w' t, length w = 4%nat -> hex_text w l -> lead_unit l ->
        length w' = 4%nat -> hex_text w' t -> trail_unit t ->
        ucode r (w ++ 92 :: 117 :: w') (0x10000 + (l - 0xd800) * 1024 + (t - 0xdc00))
    | u_code : forall w v, w <> [] -> hex_text w v -> v <= 0x10ffff -> ucode r (123 :: w ++ [125]) v.

  (** UnicodePropertyValueExpression *)
  Inductive uprop : list Z -> Z -> Z -> Prop :=
    | p_name : forall w p v, Forall (fun c => letter c \/ c = 95) w -> t_prop T w [] p v -> uprop w p v
    | p_value : forall w x p v, Forall (fun c => letter c \/ c = 95) w ->
        Forall (fun c => letter c \/ digit c \/ c = 95) x -> t_prop T w x p v -> uprop (w ++ 61 :: x) p v.

  (** CharacterClassEscape and CharacterEscape, behind the backslash *)
  Inductive esc (r : list Z) : list Z -> cset -> Prop :=
    | e_f : esc r [102] (CNormal 12)
    | e_n : esc r [110] (CNormal 10)
    | e_r : esc r [114] (CNormal 13)
    | e_t : esc r [116] (CNormal 9)
    | e_v : esc r [118] (CNormal 11)
    | e_d : esc r [100] Cd
    | e_s : esc r [115] Cs
    | e_w : esc r [119] Cw
    | e_D : esc r [68] CnotD
    | e_S : esc r [83] CnotS
    | e_W : esc r [87] CnotW
    | e_c : forall c, letter c -> esc r [99; c] (CNormal (c mod 32))
    | e_0 : ~ starts digit r -> esc r [48] (CNormal 0)
    | e_x : forall w v, length w = 2%nat -> hex_text w v -> esc r (120 :: w) (CNormal v)
    | e_u : forall w v, u = false -> length w = 4%nat -> hex_text w v -> esc r (117 :: w) (CNormal v)
    | e_uu : forall w v, u = true -> ucode r w v -> esc r (117 :: w) (CNormal v)
    | e_p : forall w p v, u = true -> uprop w p v -> esc r (112 :: 123 :: w ++ [125]) (Cp p v)
    | e_P : forall w p v, u = true -> uprop w p v -> esc r (80 :: 123 :: w ++ [125]) (CnotP p v)
    | e_id : forall c, u = false -> 0 <= c -> ~ t_continue T c -> esc r [c] (CNormal c)
    | e_syn : forall c, u = true -> syntax c \/ c = 47 -> esc r [c] (CNormal c).

  (** ClassAtom.  Left out: \- with u, properties *)
  Inductive catom (r : list Z) : list Z -> cset -> Prop :=
    | ca_char : forall c, 0 <= c -> c <> 92 -> c <> 93 -> catom r [c] (CNormal c)
    | ca_b : catom r [92; 98] (CNormal 8)
    | ca_dash : u = true -> whole = true -> catom r [92; 45] (CNormal 45)
    | ca_esc : forall w k, esc r w k ->
        (whole = true \/ match k with Cp _ _ | CnotP _ _ => False | _ => True end) -> catom r (92 :: w) k.
  (** ClassRanges: an atom that is not in a range has no - behind it, but for the last
      character.  Left out: a class escape in front of a last - *)
  Inductive ranges (r : list Z) : list Z -> list citem -> Prop :=
    | c_nil : ranges r [] []
    | c_one : forall w k x l, catom (x ++ 93 :: r) w k -> ranges r x l ->
        (x = [45] /\ (whole = true \/ exists c, k = CNormal c) \/ ~ starts (eq 45) x) ->
        ranges r (w ++ x) (CItem k :: l)
    | c_range : forall w lo w' hi x l, catom (45 :: w' ++ x ++ 93 :: r) w (CNormal lo) ->
        catom (x ++ 93 :: r) w' (CNormal hi) -> lo <= hi -> ranges r x l ->
        ranges r (w ++ 45 :: w' ++ x) (CRange lo hi :: l).
  Inductive cclass (r : list Z) : list Z -> atom -> Prop :=
    | c_pos : forall w l, ~ starts (eq 94) w -> ranges r w l -> cclass r (91 :: w ++ [93]) (AClass false l)
    | c_neg : forall w l, ranges r w l -> cclass r (91 :: 94 :: w ++ [93]) (AClass true l).

  (** GroupName *)
  Inductive nchar (r : list Z) : list Z -> Z -> Prop :=
    | n_char : forall c, nchar r [c] c
    | n_esc : forall w v, ucode r w v -> nchar r (92 :: 117 :: w) v.
  Inductive npart (r : list Z) : list Z -> list Z -> Prop :=
    | n_end : npart r [] []
    | n_next : forall w c x m, nchar (x ++ 62 :: r) w c -> t_continue T c -> npart r x m -> npart r (w ++ x) (c :: m).
  Inductive gname (r : list Z) : list Z -> list Z -> Prop :=
    | gn : forall w c x m, nchar (x ++ 62 :: r) w c -> t_start T c -> npart r x m ->
        gname r (60 :: w ++ x ++ [62]) (c :: m).

  (** Quantifier.  Left out: a bound above 2^63 - 1 *)
  Inductive qprefix : list Z -> nat -> option nat -> Prop :=
    | q_star : qprefix [42] 0 None
    | q_plus : qprefix [43] 1 None
    | q_opt : qprefix [63] 0 (Some 1%nat)
    | q_n : forall w v, w <> [] -> dec_text w v -> (whole = true \/ v < 2 ^ 63) ->
        qprefix (123 :: w ++ [125]) (Z.to_nat v) (Some (Z.to_nat v))
    | q_min : forall w v, w <> [] -> dec_text w v -> (whole = true \/ v < 2 ^ 63) ->
        qprefix (123 :: w ++ [44; 125]) (Z.to_nat v) None
    | q_both : forall w v w' v', w <> [] -> dec_text w v -> w' <> [] -> dec_text w' v' -> v <= v' ->
        (whole = true \/ v' < 2 ^ 63) ->
        qprefix (123 :: w ++ 44 :: w' ++ [125]) (Z.to_nat v) (Some (Z.to_nat v')).
  Inductive quant : list Z -> nat -> option nat -> bool -> Prop :=
    | q_none : quant [] 1 (Some 1%nat) true
    | q_greedy : forall w mn mx, qprefix w mn mx -> quant w mn mx true
    | q_lazy : forall w mn mx, qprefix w mn mx -> quant (w ++ [63]) mn mx false.

  (** the index of a name *)
  Definition mention (l : list (list Z)) (m : list Z) (i : nat) (l' : list (list Z)) : Prop :=
    (nth_error l i = Some m /\ l' = l) \/ (~ In m l /\ i = length l /\ l' = l ++ [m]).

  (** Disjunction, Alternative, Term, Assertion, Atom.  A name has one group.  Left out: a
      back reference above 2^31 - 1 *)
  Inductive gpat : gst -> list Z -> list Z -> pattern -> gst -> Prop :=
    | g_last : forall s r w l s', galt s r w l s' -> gpat s r w [l] s'
    | g_or : forall s r w l s1 x p s', galt s (124 :: x ++ r) w l s1 -> gpat s1 r x p s' ->
        gpat s r (w ++ 124 :: x) (l :: p) s'
  with galt : gst -> list Z -> list Z -> alt -> gst -> Prop :=
    | g_empty : forall s r, galt s r [] [] s
    | g_term : forall s r w t s1 x l s', gterm s (x ++ r) w t s1 -> galt s1 r x l s' ->
        galt s r (w ++ x) (t :: l) s'
  with gterm : gst -> list Z -> list Z -> term -> gst -> Prop :=
    | g_assert : forall s r w a s', gassert s r w a s' ->
        gterm s r w (Term a 1 (Some 1%nat) (g_next s) (g_next s') true) s'
    | g_atom : forall s r w a s' x mn mx g, gatom s (x ++ r) w a s' -> quant x mn mx g ->
        gterm s r (w ++ x) (Term a mn mx (g_next s) (g_next s') g) s'
  with gassert : gst -> list Z -> list Z -> atom -> gst -> Prop :=
    | a_start : forall s r, gassert s r [94] ALineStart s
    | a_end : forall s r, gassert s r [36] ALineEnd s
    | a_b : forall s r, gassert s r [92; 98] AWordB s
    | a_B : forall s r, gassert s r [92; 66] ANotWordB s
    | a_la : forall s r w p s', gpat s (41 :: r) w p s' -> gassert s r (40 :: 63 :: 61 :: w ++ [41]) (ALook true false p) s'
    | a_nla : forall s r w p s', gpat s (41 :: r) w p s' -> gassert s r (40 :: 63 :: 33 :: w ++ [41]) (ALook true true p) s'
    | a_lb : forall s r w p s', gpat s (41 :: r) w p s' ->
        gassert s r (40 :: 63 :: 60 :: 61 :: w ++ [41]) (ALook false false p) s'
    | a_nlb : forall s r w p s', gpat s (41 :: r) w p s' ->
        gassert s r (40 :: 63 :: 60 :: 33 :: w ++ [41]) (ALook false true p) s'
  with gatom : gst -> list Z -> list Z -> atom -> gst -> Prop :=
    | a_char : forall s r c, 0 <= c -> ~ syntax c -> gatom s r [c] (AChar (CNormal c)) s
    | a_dot : forall s r, gatom s r [46] AAll s
    | a_class : forall s r w a, cclass r w a -> gatom s r w a s
    | a_esc : forall s r w k, esc r w k -> gatom s r (92 :: w) (AChar k) s
    | a_back : forall s r w v, w <> [] -> ~ starts (eq 48) w -> dec_text w v -> ~ starts digit r ->
        (whole = true \/ v < 2 ^ 31) ->
        gatom s r (92 :: w) (ABack (Z.to_nat v)) (G (g_next s) (g_names s) (g_defs s) (g_refs s ++ [v]))
    | a_name : forall s r w m i l', n = true -> gname r w m -> mention (g_names s) m i l' ->
        gatom s r (92 :: 107 :: w) (AName (Z.of_nat i)) (G (g_next s) l' (g_defs s) (g_refs s))
    | a_group : forall s r w p s', gpat (G (S (g_next s)) (g_names s) (g_defs s) (g_refs s)) (41 :: r) w p s' ->
        gatom s r (40 :: w ++ [41]) (AGroup (g_next s) p) s'
    | a_named : forall s r w m i l' x p s', gname (x ++ 41 :: r) w m -> ~ In m (g_defs s) ->
        mention (g_names s) m i l' ->
        gpat (G (S (g_next s)) l' (g_defs s ++ [m]) (g_refs s)) (41 :: r) x p s' ->
        gatom s r (40 :: 63 :: w ++ x ++ [41]) (AGroup (g_next s) p) s'
    | a_plain : forall s r w p s', gpat s (41 :: r) w p s' ->
        gatom s r (40 :: 63 :: 58 :: w ++ [41]) (APat p) s'.

  (** Pattern, with its early errors: references are to groups of the pattern *)
  Definition valid (w : list Z) (p : pattern) (s : gst) : Prop :=
    gpat (G 1 [] [] []) [] w p s /\
    Forall (fun v => v < Z.of_nat (g_next s)) (g_refs s) /\ incl (g_names s) (g_defs s).
End grammar.

(** the references of a tree: numbers of groups, indices of names *)
Fixpoint refs_atom (g m : nat) (a : atom) : bool :=
  match a with
  | ABack id => (1 <=? id)%nat && (id <? g)%nat
  | AName i => (0 <=? i) && (i <? Z.of_nat m)
  | APat p | AGroup _ p | ALook _ _ p => forallb (forallb (refs_term g m)) p
  | _ => true
  end
with refs_term (g m : nat) (t : term) : bool := match t with Term a _ _ _ _ _ => refs_atom g m a end.
