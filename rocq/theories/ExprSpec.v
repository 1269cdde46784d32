(** The expression grammar of ECMA-262 (clause 13), restricted to the tokens of
    ExprModel: which token lists are expressions, and what tree each one has. *)
From Coq Require Import List Bool Arith String.
From Verif Require Import ExprModel.
Import ListNotations.
Local Open Scope string_scope.
Local Open Scope list_scope.

(** The nonterminals. *)
Inductive nt := NExpr | NAssi | NCond | NShort | NCoal | NLor | NLand | NBor
  | NBxor | NBand | NEq | NRel | NShift | NAdd | NMul | NExp | NUnary | NUpdate
  | NLhs | NOpt | NCall | NNew | NMember | NPrimary.

(** The productions with one nonterminal on the right. *)
Inductive unit_rule : nt -> nt -> Prop :=
  | u_assi : unit_rule NAssi NCond
  | u_cond : unit_rule NCond NShort
  | u_short1 : unit_rule NShort NLor
  | u_short2 : unit_rule NShort NCoal
  | u_lor : unit_rule NLor NLand
  | u_land : unit_rule NLand NBor
  | u_bor : unit_rule NBor NBxor
  | u_bxor : unit_rule NBxor NBand
  | u_band : unit_rule NBand NEq
  | u_eq : unit_rule NEq NRel
  | u_rel : unit_rule NRel NShift
  | u_shift : unit_rule NShift NAdd
  | u_add : unit_rule NAdd NMul
  | u_mul : unit_rule NMul NExp
  | u_exp : unit_rule NExp NUnary
  | u_unary : unit_rule NUnary NUpdate
  | u_update : unit_rule NUpdate NLhs
  | u_lhs1 : unit_rule NLhs NNew
  | u_lhs2 : unit_rule NLhs NCall
  | u_lhs3 : unit_rule NLhs NOpt
  | u_new : unit_rule NNew NMember
  | u_member : unit_rule NMember NPrimary.

(** The left associative binary operators: [left_op o n m] stands for the
    production  n : n o m. *)
Definition left_op (o : binop) : option (nt * nt) :=
  match o with
  | Omul | Odiv | Omod => Some (NMul, NExp)
  | Oadd | Osub => Some (NAdd, NMul)
  | Oshl | Oshr | Oushr => Some (NShift, NAdd)
  | Olt | Ogt | Ole | Oge | Oinstanceof | Oin => Some (NRel, NShift)
  | Oeq | One_ | Oseq | Osne => Some (NEq, NRel)
  | Oband => Some (NBand, NEq)
  | Obxor => Some (NBxor, NBand)
  | Obor => Some (NBor, NBxor)
  | Oand => Some (NLand, NBor)
  | Oor => Some (NLor, NLand)
  | Oexp | Oques => None
  end.

(** How operators and names are written. *)
Definition op_tok (o : binop) : tok :=
  match o with
  | Oadd => Tplus
  | Osub => Tminus
  | Oin => Tkw Kin
  | Oinstanceof => Tkw Kinstanceof
  | _ => Tbin o
  end.
Definition un_tok (u : unop) : tok :=
  match u with
  | Udelete => Tkw Kdelete | Uvoid => Tkw Kvoid | Utypeof => Tkw Ktypeof
  | Uawait => Tkw Kawait | Uplus => Tplus | Uneg => Tminus | Urev => Ttilde
  | Unot => Tbang
  end.
Definition name_tok (p : pname) : tok :=
  match p with Pid x => Tid x | Pkw k => Tkw k end.
Definition inc_tok (inc nl : bool) : tok := if inc then Tinc nl else Tdec nl.

(** The tokens that are an expression by themselves. *)
Inductive atom : tree -> tok -> Prop :=
  | at_id x : atom (Id x) (Tid x)
  | at_zero : atom Zero Tzero
  | at_one : atom One Tone
  | at_val b n : atom (Val b n) (Tval b n)
  | at_prim n : atom (Prim n) (Tprim n)
  | at_tmpl n : atom (Tmpl n) (Ttmpl n)
  | at_this : atom This (Tkw Kthis)
  | at_null : atom Null (Tkw Knull)
  | at_true : atom True_ (Tkw Ktrue)
  | at_false : atom False_ (Tkw Kfalse).

(** AssignmentTargetType simple (13.15.1, 8.6.4). *)
Inductive simple (strict : bool) : tree -> Prop :=
  | s_id x : ~ (strict = true /\ (x = "arguments" \/ x = "eval")) -> simple strict (Id x)
  | s_member o p : simple strict (Member o p)
  | s_index o e : simple strict (Index o e)
  | s_priv o x : simple strict (PrivMember o x)
  | s_super p : simple strict (SuperMember p)
  | s_superi e : simple strict (SuperIndex e)
  | s_parens e : simple strict e -> simple strict (Parens e).

(** The early error of `delete' in strict mode (13.5.1.1): a name, or a private
    member, also at the end of an optional chain, possibly in parentheses. *)
Inductive delete_error : tree -> Prop :=
  | d_id x : delete_error (Id x)
  | d_priv o x : delete_error (PrivMember o x)
  | d_opt o x : delete_error (Opt (PrivMember o x))
  | d_parens e : delete_error e -> delete_error (Parens e).

(** The tree of a comma separated list. *)
Definition seq (es : list tree) : tree :=
  match es with [e] => e | _ => Comma es end.

(** The tree of a target: the parentheses around the target of `=' are not kept. *)
Fixpoint bare (t : tree) : tree := match t with Parens e => bare e | _ => t end.
Definition target (a : asop) (t : tree) : tree :=
  match a with Aplain => bare t | _ => t end.

Section Grammar.
Variable strict : bool.

(** [G i n t w]: the nonterminal [n], with the parameter In when [i], derives
    the tokens [w] with the tree [t].  [E]: a nonempty list of assignment
    expressions between commas.  [L]: a nonempty argument list.  [A]: what
    follows the `(' of arguments.  [H b t w]: an optional chain on the base
    [b]. *)
Inductive G : bool -> nt -> tree -> list tok -> Prop :=
  | g_unit i n m t w : unit_rule n m -> G i m t w -> G i n t w
  | g_expr i es w : E i es w -> G i NExpr (seq es) w
  (* assignment level *)
  | g_assign i a l r wl wr :
      G i NLhs l wl -> simple strict l -> G i NAssi r wr ->
      G i NAssi (Assign a (target a l) r) (wl ++ Tas a :: wr)
  | g_arrow i x b w :
      G i NAssi b w -> G i NAssi (Arrow x b) (Tid x :: Tarrow false :: w)
  | g_cond i c a b wc wa wb :
      G i NShort c wc -> G true NAssi a wa -> G i NAssi b wb ->
      G i NCond (Cond c a b) (wc ++ Tques :: wa ++ Tcolon :: wb)
  (* binary operators *)
  | g_coal i n l r wl wr :
      n = NCoal \/ n = NBor ->
      G i n l wl -> G i NBor r wr -> G i NCoal (Bin Oques l r) (wl ++ Tbin Oques :: wr)
  | g_left i o n m l r wl wr :
      left_op o = Some (n, m) -> (o = Oin -> i = true) ->
      G i n l wl -> G i m r wr -> G i n (Bin o l r) (wl ++ op_tok o :: wr)
  | g_private i x r w :
      i = true -> G i NShift r w ->
      G i NRel (Bin Oin (PrivRef x) r) (Tpriv x :: Tkw Kin :: w)
  | g_exp i l r wl wr :
      G i NUpdate l wl -> G i NExp r wr -> G i NExp (Bin Oexp l r) (wl ++ Tbin Oexp :: wr)
  (* unary operators *)
  | g_unary i u e w :
      G i NUnary e w -> (u = Udelete -> strict = true -> ~ delete_error e) ->
      G i NUnary (Un u e) (un_tok u :: w)
  | g_pre i inc nl e w :
      G i NUnary e w -> simple strict e -> G i NUpdate (Pre inc e) (inc_tok inc nl :: w)
  | g_post i inc e w :
      G i NLhs e w -> simple strict e -> G i NUpdate (Post inc e) (w ++ [inc_tok inc false])
  (* left hand sides *)
  | g_opt i n b t wb w :
      n = NMember \/ n = NCall \/ n = NOpt ->
      G i n b wb -> H b t w -> G i NOpt (Opt t) (wb ++ w)
  | g_call1 i f a wf wa :
      G i NMember f wf -> A a wa -> G i NCall (Call f a) (wf ++ Tlp :: wa)
  | g_call2 i f a wf wa :
      G i NCall f wf -> A a wa -> G i NCall (Call f a) (wf ++ Tlp :: wa)
  | g_super_call i a wa : A a wa -> G i NCall (SuperCall a) (Tkw Ksuper :: Tlp :: wa)
  | g_new i f w : G i NNew f w -> G i NNew (New f []) (Tkw Knew :: w)
  | g_new_args i f a wf wa :
      G i NMember f wf -> A a wa -> G i NMember (New f a) (Tkw Knew :: wf ++ Tlp :: wa)
  | g_new_target i : G i NMember NewTarget [Tkw Knew; Tdot; Tid "target"]
  | g_super_name i p : G i NMember (SuperMember p) [Tkw Ksuper; Tdot; name_tok p]
  | g_super_index i e w :
      G true NExpr e w -> G i NMember (SuperIndex e) (Tkw Ksuper :: Tlb :: w ++ [Trb])
  | g_name i n o p w :
      n = NMember \/ n = NCall -> G i n o w -> G i n (Member o p) (w ++ [Tdot; name_tok p])
  | g_priv i n o x w :
      n = NMember \/ n = NCall -> G i n o w -> G i n (PrivMember o x) (w ++ [Tdot; Tpriv x])
  | g_index i n o e w we :
      n = NMember \/ n = NCall -> G i n o w -> G true NExpr e we ->
      G i n (Index o e) (w ++ Tlb :: we ++ [Trb])
  | g_tagged i n o k w :
      n = NMember \/ n = NCall -> G i n o w -> G i n (Tagged o k) (w ++ [Ttmpl k])
  | g_atom i t k : atom t k -> G i NPrimary t [k]
  | g_parens i es w : E true es w -> G i NPrimary (Parens (seq es)) (Tlp :: w ++ [Trp])
with E : bool -> list tree -> list tok -> Prop :=
  | e_one i e w : G i NAssi e w -> E i [e] w
  | e_cons i e es w ws : G i NAssi e w -> E i es ws -> E i (e :: es) (w ++ Tcomma :: ws)
with L : list (arg tree) -> list tok -> Prop :=
  | l_one e w : G true NAssi e w -> L [Arg e] w
  | l_spread e w : G true NAssi e w -> L [Spread e] (Tdots :: w)
  | l_cons e es w ws : G true NAssi e w -> L es ws -> L (Arg e :: es) (w ++ Tcomma :: ws)
  | l_cons_spread e es w ws :
      G true NAssi e w -> L es ws -> L (Spread e :: es) (Tdots :: w ++ Tcomma :: ws)
with A : list (arg tree) -> list tok -> Prop :=
  | a_nil : A [] [Trp]
  | a_list es w : L es w -> A es (w ++ [Trp])
  | a_trail es w : L es w -> A (es ++ [Last]) (w ++ [Tcomma; Trp])
with H : tree -> tree -> list tok -> Prop :=
  | h_call b a wa : A a wa -> H b (Call (OptBase b) a) (Tqdot :: Tlp :: wa)
  | h_index b e w : G true NExpr e w -> H b (Index (OptBase b) e) (Tqdot :: Tlb :: w ++ [Trb])
  | h_name b p : H b (Member (OptBase b) p) [Tqdot; name_tok p]
  | h_priv b x : H b (PrivMember (OptBase b) x) [Tqdot; Tpriv x]
  | h_call' b t w a wa : H b t w -> A a wa -> H b (Call t a) (w ++ Tlp :: wa)
  | h_index' b t w e we :
      H b t w -> G true NExpr e we -> H b (Index t e) (w ++ Tlb :: we ++ [Trb])
  | h_name' b t w p : H b t w -> H b (Member t p) (w ++ [Tdot; name_tok p])
  | h_priv' b t w x : H b t w -> H b (PrivMember t x) (w ++ [Tdot; Tpriv x]).

End Grammar.

(** The simplification of constant operands the parser makes while it builds
    the tree. *)
Definition truth (t : tree) : option bool :=
  match t with
  | Val b _ => Some b
  | True_ => Some true
  | False_ | Null => Some false
  | _ => None
  end.
Definition choose (c : option bool) (yes no other : tree) : tree :=
  match c with Some true => yes | Some false => no | None => other end.
Definition nullish (t : tree) : bool :=
  match t with Null => true | Id x => String.eqb x "undefined" | _ => false end.

Definition map_arg (f : tree -> tree) (a : arg tree) : arg tree :=
  match a with Arg e => Arg (f e) | Spread e => Spread (f e) | Last => Last end.

Fixpoint fold (t : tree) : tree :=
  match t with
  | Parens e => Parens (fold e)
  | Comma l => Comma (map fold l)
  | Tagged f n => Tagged (fold f) n
  | Member o p => Member (fold o) p
  | Index o e => Index (fold o) (fold e)
  | PrivMember o x => PrivMember (fold o) x
  | SuperIndex e => SuperIndex (fold e)
  | SuperCall a => SuperCall (map (map_arg fold) a)
  | Call f a => Call (fold f) (map (map_arg fold) a)
  | New f a => New (fold f) (map (map_arg fold) a)
  | OptBase e => OptBase (fold e)
  | Opt e => Opt (fold e)
  | Un u e => Un u (fold e)
  | Pre inc e => Pre inc (fold e)
  | Post inc e => Post inc (fold e)
  | Bin Oand l r => choose (truth (fold l)) (fold r) (fold l) (Bin Oand (fold l) (fold r))
  | Bin Oor l r => choose (truth (fold l)) (fold l) (fold r) (Bin Oor (fold l) (fold r))
  | Bin Oques l r =>
      if nullish (fold l) then fold r else Bin Oques (fold l) (fold r)
  | Bin o l r => Bin o (fold l) (fold r)
  | Cond c a b => choose (truth (fold c)) (fold a) (fold b) (Cond (fold c) (fold a) (fold b))
  | Assign a l r => Assign a (fold l) (fold r)
  | Arrow x b => Arrow x (fold b)
  | _ => t
  end.

(** Tokens that may continue an expression ([i]: `in' is an operator). *)
Definition continues (i : bool) (t : tok) : bool :=
  match t with
  | Tdot | Tqdot | Tlb | Tlp | Ttmpl _ | Tplus | Tminus | Tbin _ | Tques | Tas _
  | Tcomma | Tkw Kinstanceof | Tarrow _ => true
  | Tkw Kin => i
  | Tinc nl | Tdec nl => negb nl
  | _ => false
  end.
Definition ends (i : bool) (rest : list tok) : Prop :=
  match rest with [] => True | t :: _ => continues i t = false end.

(** No two neighbours in [w] are a pair of [P]. *)
Definition nopair (P : tok -> tok -> bool) (w : list tok) : Prop :=
  forall x u v y, w = x ++ u :: v :: y -> P u v = false.

(** The pairs that make a difference between the parser and the grammar. *)
Definition new_new (u v : tok) : bool :=
  match u, v with Tkw Knew, Tkw Knew => true | _, _ => false end.
Definition new_super (u v : tok) : bool :=
  match u, v with Tkw Knew, Tkw Ksuper => true | _, _ => false end.
Definition comma_paren (u v : tok) : bool :=
  match u, v with Tcomma, Trp => true | _, _ => false end.
Definition const_op (u v : tok) : bool :=
  match u, v with
  | Tval _ _, (Tbin Oand | Tbin Oor | Tques)
  | Tkw Ktrue, (Tbin Oand | Tbin Oor | Tques)
  | Tkw Kfalse, (Tbin Oand | Tbin Oor | Tques)
  | Tkw Knull, (Tbin Oand | Tbin Oor | Tques | Tbin Oques) => true
  | Tid x, Tbin Oques => String.eqb x "undefined"
  | _, _ => false
  end.

(** Token lists on which every expression is accepted. *)
Definition plain_accept (strict : bool) (w : list tok) : Prop :=
  nopair new_new w /\ nopair new_super w /\
  (strict = true -> ~ In (Tkw Kdelete) w \/ (~ In Tqdot w /\ nopair const_op w)).

(** Token lists on which only expressions are accepted. *)
Definition plain_only (w : list tok) : Prop :=
  nopair new_new w /\ nopair comma_paren w /\ nopair const_op w /\
  (~ In (Tkw Knew) w \/ ~ In Tqdot w).

(** The standard's value of the simple expressions: constants, names,
    parentheses, comma lists, unary and binary operators, conditionals and
    assignments to names.  The values, the operators and what is true or nullish
    are left open; [None] is an exception; a store gives the bindings. *)
Section Value.
Variable V : Type.
Variable truthy isnull : V -> bool.
Variable c_val : bool -> nat -> V.
Variable c_zero c_one c_true c_false c_null c_undef : V.
Variable typeof_undef : V.
Variable vbin : binop -> V -> V -> option V.
Variable vun : unop -> V -> option V.

Definition store := string -> option V.
Definition put (m : store) (x : string) (v : V) : store :=
  fun y => if String.eqb y x then Some v else m y.

Definition unresolved (m : store) (t : tree) : bool :=
  match bare t with
  | Id x => match m x with None => true | Some _ => false end
  | _ => false
  end.

Fixpoint value (t : tree) (m : store) : store * option V :=
  match t with
  | Id x => (m, m x)
  | Val b n => (m, Some (c_val b n))
  | Zero => (m, Some c_zero)
  | One => (m, Some c_one)
  | True_ => (m, Some c_true)
  | False_ => (m, Some c_false)
  | Null => (m, Some c_null)
  | Parens e => value e m
  | Comma es =>
      (fix go l m v :=
         match l with
         | [] => (m, v)
         | e :: l' =>
             match value e m with
             | (m1, Some v1) => go l' m1 (Some v1)
             | (m1, None) => (m1, None)
             end
         end) es m None
  | Un Utypeof e =>
      if unresolved m e then (m, Some typeof_undef) else
      match value e m with
      | (m1, Some v) => (m1, vun Utypeof v)
      | r => r
      end
  | Un u e =>
      match value e m with
      | (m1, Some v) => (m1, vun u v)
      | r => r
      end
  | Bin Oand l r =>
      match value l m with
      | (m1, Some v) => if truthy v then value r m1 else (m1, Some v)
      | x => x
      end
  | Bin Oor l r =>
      match value l m with
      | (m1, Some v) => if truthy v then (m1, Some v) else value r m1
      | x => x
      end
  | Bin Oques l r =>
      match value l m with
      | (m1, Some v) => if isnull v then value r m1 else (m1, Some v)
      | x => x
      end
  | Bin o l r =>
      match value l m with
      | (m1, Some v) =>
          match value r m1 with
          | (m2, Some u) => (m2, vbin o v u)
          | x => x
          end
      | x => x
      end
  | Cond c a b =>
      match value c m with
      | (m1, Some v) => if truthy v then value a m1 else value b m1
      | x => x
      end
  | Assign Aplain (Id x) e =>
      match value e m with
      | (m1, Some v) => (put m1 x v, Some v)
      | r => r
      end
  | _ => (m, None)
  end.

End Value.

(** The expressions [value] speaks about; `delete' and `typeof' look at the
    form of their operand. *)
Inductive simple_value : tree -> Prop :=
  | v_id x : simple_value (Id x)
  | v_val b n : simple_value (Val b n)
  | v_zero : simple_value Zero
  | v_one : simple_value One
  | v_true : simple_value True_
  | v_false : simple_value False_
  | v_null : simple_value Null
  | v_parens e : simple_value e -> simple_value (Parens e)
  | v_comma es : Forall simple_value es -> simple_value (Comma es)
  | v_un u e : u <> Utypeof -> u <> Udelete -> u <> Uawait ->
      simple_value e -> simple_value (Un u e)
  | v_bin o l r : simple_value l -> simple_value r -> simple_value (Bin o l r)
  | v_cond c a b : simple_value c -> simple_value a -> simple_value b -> simple_value (Cond c a b)
  | v_assign x e : x <> "undefined" -> simple_value e -> simple_value (Assign Aplain (Id x) e).
