(** Model of the expression parser of src/lib/rjs_parser.c: parse_expr_prio
    (4897-5681) with its helpers.  The parser is an operator precedence parser:
    it is called with the smallest priority [prio] it may take and keeps in
    [last_prio] the priority of the expression read so far.

    Tokens: names, literals, the punctuators and keywords of expressions.  One
    token [Tprim] stands for a primary expression read by another function
    (function, class: parse_hoistable_decl, parse_class_decl), one token
    [Ttmpl] for a whole template.  The token [Tother] stands for any token that
    neither starts nor continues an expression, the end of the list for the
    token END.  The tokens `++', `--' and `=>' carry the flag "preceded by a
    line terminator" (tok->location.first_line != parser->last_line).

    Not modelled: array and object literals (so destructuring targets), arrow
    parameters in parentheses and block bodies, `async' arrows, `yield',
    `import', source locations, error recovery (parse_error marks the parse as
    failed and goes on; here the first error is the result), the check_expr of
    object literals, the contains lists, and the names given to functions. *)
From Coq Require Import List Bool Arith String Lia.
Import ListNotations.
Local Open Scope string_scope.
Local Open Scope nat_scope.

(** Keywords that matter here; the lexer returns them as identifiers
    (rjs_lex.c), token_is_identifier (rjs_parser.c) tells them apart.
    [Kawait] is `await' under RJS_PARSE_FL_AWAIT. *)
Inductive kw := Kdelete | Kvoid | Ktypeof | Kawait | Kthis | Knull | Ktrue
  | Kfalse | Ksuper | Knew | Kin | Kinstanceof | Kother.

(** Binary operators without assignment and comma. *)
Inductive binop := Oadd | Osub | Omul | Odiv | Omod | Oexp
  | Olt | Ogt | Ole | Oge | Oinstanceof | Oin | Oeq | One_ | Oseq | Osne
  | Oshl | Oshr | Oushr | Oband | Obxor | Obor | Oand | Oor | Oques.

(** Assignment operators: `=' or a compound one. *)
Inductive asop := Aplain | Aop (o : binop).

Inductive tok :=
  | Tid (x : string) | Tkw (k : kw) | Tpriv (x : string)
  | Tzero | Tone | Tval (truth : bool) (n : nat) | Tprim (n : nat) | Ttmpl (n : nat)
  | Tlp | Trp | Tlb | Trb | Tdot | Tqdot | Tdots | Tcomma | Tques | Tcolon
  | Tplus | Tminus | Ttilde | Tbang | Tinc (nl : bool) | Tdec (nl : bool)
  | Tbin (o : binop)  (* the operators other than + - in instanceof *)
  | Tas (a : asop) | Tarrow (nl : bool) | Tother.

(** The name after a `.': any identifier name (parse_dot_member_expr,
    rjs_parser.c:4289). *)
Inductive pname := Pid (x : string) | Pkw (k : kw).

(** Arguments: an expression, `...' expression, or the mark LastElision of a
    trailing comma (rjs_parser.c:3624). *)
Inductive arg (A : Type) := Arg (a : A) | Spread (a : A) | Last.
Arguments Arg {A}. Arguments Spread {A}. Arguments Last {A}.

Inductive unop := Udelete | Uvoid | Utypeof | Uawait | Uplus | Uneg | Urev | Unot.

(** The nodes of the syntax tree (rjs_ast.h). *)
Inductive tree :=
  | Id (x : string) | Val (truth : bool) (n : nat) | Zero | One | True_ | False_
  | Null | This | Prim (n : nat) | Tmpl (n : nat) | PrivRef (x : string)
  | NewTarget
  | Parens (e : tree) | Comma (l : list tree)
  | Tagged (f : tree) (n : nat)
  | Member (o : tree) (p : pname) | Index (o e : tree) | PrivMember (o : tree) (x : string)
  | SuperMember (p : pname) | SuperIndex (e : tree) | SuperCall (a : list (arg tree))
  | Call (f : tree) (a : list (arg tree)) | New (f : tree) (a : list (arg tree))
  | OptBase (e : tree) | Opt (e : tree)
  | Un (u : unop) (e : tree) | Pre (inc : bool) (e : tree) | Post (inc : bool) (e : tree)
  | Bin (o : binop) (l r : tree) | Cond (c a b : tree)
  | Assign (a : asop) (l r : tree)
  | ArrowParams (x : string) | Arrow (x : string) (b : tree).

(** Result of a parse function: a value and the tokens left, an error, or not
    enough fuel. *)
Inductive res (A : Type) := Ok (a : A) (rest : list tok) | Err | Out.
Arguments Ok {A}. Arguments Err {A}. Arguments Out {A}.

(** Priorities (rjs_parser.c:60-83). *)
Notation LOWEST := 0. Notation COMMA := 1. Notation ASSI := 2. Notation COND := 3.
Notation QUES := 4. Notation OR := 5. Notation AND := 6. Notation BOR := 7.
Notation BXOR := 8. Notation BAND := 9. Notation EQ := 10. Notation REL := 11.
Notation SHIFT := 12. Notation ADD := 13. Notation MUL := 14. Notation EXP := 15.
Notation UNARY := 16. Notation UPDATE := 17. Notation LH := 18. Notation NEW := 19.
Notation MEMBER := 20. Notation HIGHEST := 21.

(** check_simple_assi_target_internal (rjs_parser.c:2088-2123). *)
Fixpoint simple_target (strict : bool) (t : tree) : bool :=
  match t with
  | Id x => negb (strict && (String.eqb x "arguments" || String.eqb x "eval"))
  | Member _ _ | Index _ _ | SuperMember _ | SuperIndex _ | PrivMember _ _ => true
  | Parens e => simple_target strict e
  | _ => false
  end.

(** check_delete_operand_internal (rjs_parser.c:2037-2066). *)
Fixpoint delete_operand (strict : bool) (t : tree) : bool :=
  if strict then
    match t with
    | Id _ | PrivMember _ _ | Opt _ => false
    | Parens e => delete_operand strict e
    | _ => true
    end
  else true.

(** The boolean value of a constant operand as read by parse_logic_and_expr,
    parse_logic_or_expr and parse_cond_expr (rjs_parser.c:3956-3965, 4001-4010,
    4360-4369); Zero and One are not looked at. *)
Definition const_bool (t : tree) : option bool :=
  match t with
  | Val b _ => Some b
  | True_ => Some true
  | False_ | Null => Some false
  | _ => None
  end.

(** parse_logic_and_expr (rjs_parser.c:3943-3987). *)
Definition mk_and (l r : tree) : tree :=
  match const_bool l with
  | Some true => r
  | Some false => l
  | None => Bin Oand l r
  end.

(** parse_logic_or_expr (rjs_parser.c:3990-4032). *)
Definition mk_or (l r : tree) : tree :=
  match const_bool l with
  | Some true => l
  | Some false => r
  | None => Bin Oor l r
  end.

(** parse_ques_expr (rjs_parser.c:4035-4082): the test `r == RJS_FALSE' of line
    4066 never holds. *)
Definition mk_ques (l r : tree) : tree :=
  match l with
  | Null => r
  | Id x => if String.eqb x "undefined" then r else Bin Oques l r
  | _ => Bin Oques l r
  end.

(** parse_cond_expr (rjs_parser.c:4371-4381). *)
Definition mk_cond (c a b : tree) : tree :=
  match const_bool c with
  | Some true => a
  | Some false => b
  | None => Cond c a b
  end.

Definition mk_bin (o : binop) (l r : tree) : tree :=
  match o with
  | Oand => mk_and l r
  | Oor => mk_or l r
  | Oques => mk_ques l r
  | _ => Bin o l r
  end.

(** parse_comma_expr (rjs_parser.c:4586-4615). *)
Definition mk_comma (l r : tree) : tree :=
  match l with
  | Comma xs => Comma (xs ++ [r])
  | _ => Comma [l; r]
  end.

(** expr_to_lh (rjs_parser.c:4390-4425) without patterns: parentheses go. *)
Fixpoint to_lh (t : tree) : tree :=
  match t with Parens e => to_lh e | _ => t end.

(** The node made by parse_assi_expr (rjs_parser.c:4429-4486). *)
Definition mk_assign (a : asop) (l r : tree) : tree :=
  match a with
  | Aplain => Assign a (to_lh l) r
  | _ => Assign a l r
  end.

(** The prefix operators of parse_expr_prio (rjs_parser.c:4963-5050, 5077-5096):
    the operator, and the priority it gives to the expression. *)
Definition prefix (t : tok) : option (unop * nat) :=
  match t with
  | Tplus => Some (Uplus, UNARY)
  | Tminus => Some (Uneg, UNARY)
  | Ttilde => Some (Urev, UNARY)
  | Tbang => Some (Unot, UNARY)
  | Tkw Kdelete => Some (Udelete, UNARY)
  | Tkw Kvoid => Some (Uvoid, UNARY)
  | Tkw Ktypeof => Some (Utypeof, UNARY)
  | Tkw Kawait => Some (Uawait, UNARY)
  | _ => None
  end.

(** The binary operators of the loop of parse_expr_prio (rjs_parser.c:5202-5450
    and 5612-5630): operator, smallest last_prio of the left operand, priority
    of the operator, priority the right operand is read with. *)
Definition infix (t : tok) : option (binop * nat * nat * nat) :=
  match t with
  | Tplus => Some (Oadd, ADD, ADD, MUL)
  | Tminus => Some (Osub, ADD, ADD, MUL)
  | Tbin Omul => Some (Omul, MUL, MUL, EXP)
  | Tbin Odiv => Some (Odiv, MUL, MUL, EXP)
  | Tbin Omod => Some (Omod, MUL, MUL, EXP)
  | Tbin Oexp => Some (Oexp, UPDATE, EXP, EXP)
  | Tbin Olt => Some (Olt, REL, REL, SHIFT)
  | Tbin Ogt => Some (Ogt, REL, REL, SHIFT)
  | Tbin Ole => Some (Ole, REL, REL, SHIFT)
  | Tbin Oge => Some (Oge, REL, REL, SHIFT)
  | Tbin Oeq => Some (Oeq, EQ, EQ, REL)
  | Tbin One_ => Some (One_, EQ, EQ, REL)
  | Tbin Oseq => Some (Oseq, EQ, EQ, REL)
  | Tbin Osne => Some (Osne, EQ, EQ, REL)
  | Tbin Oshl => Some (Oshl, SHIFT, SHIFT, ADD)
  | Tbin Oshr => Some (Oshr, SHIFT, SHIFT, ADD)
  | Tbin Oushr => Some (Oushr, SHIFT, SHIFT, ADD)
  | Tbin Oband => Some (Oband, BAND, BAND, EQ)
  | Tbin Obxor => Some (Obxor, BXOR, BXOR, BAND)
  | Tbin Obor => Some (Obor, BOR, BOR, BXOR)
  | Tbin Oand => Some (Oand, AND, AND, BOR)
  | Tbin Oor => Some (Oor, OR, OR, AND)
  | Tbin Oques => Some (Oques, BOR, QUES, BOR)
  | Tkw Kinstanceof => Some (Oinstanceof, REL, REL, SHIFT)
  | Tkw Kin => Some (Oin, REL, REL, SHIFT)
  | _ => None
  end.

(** Left operand test: `??' also takes another `??' on its left
    (rjs_parser.c:5444). *)
Definition left_ok (o : binop) (need last : nat) : bool :=
  (need <=? last) || (match o with Oques => last =? QUES | _ => false end).

(** `in' needs RJS_PARSE_FL_IN (rjs_parser.c:5620). *)
Definition op_allowed (inf : bool) (o : binop) : bool :=
  match o with Oin => inf | _ => true end.

(** The name read after a `.' (rjs_parser.c:4289, 3702). *)
Definition prop_name (t : tok) : option pname :=
  match t with
  | Tid x => Some (Pid x)
  | Tkw k => Some (Pkw k)
  | _ => None
  end.

(** The content of parentheses: one expression or a comma node
    (rjs_parser.c:3220, 3297). *)
Definition paren_content (es : list tree) : option tree :=
  match es with
  | [] => None
  | [e] => Some e
  | _ => Some (Comma es)
  end.

(** The functions of the parser call each other; [fns] holds them, each step
    below is the body of one of them, and [fn fuel] ties the knot [fuel] calls
    deep. *)
Record fns := {
  fparse : bool -> nat -> list tok -> res tree;
  fpre : bool -> nat -> bool -> list tok -> res tree;
  fnew : bool -> list tok -> res tree;
  floop : bool -> nat -> nat -> tree -> list tok -> res tree;
  fparens : list tok -> res (list tree);
  fargs : bool -> list tok -> res (list (arg tree));
  fchain : tree -> bool -> list tok -> res tree
}.

Section Parser.
Variable strict : bool.  (* RJS_PARSE_FL_STRICT *)

Section Steps.
Variable F : fns.

(** parse_expr_prio (rjs_parser.c:4897-5681) up to its loop. *)
Definition parse_step (inf : bool) (prio : nat) (s : list tok) : res tree :=
    let continue last t s' := floop F inf prio last t s' in
    match s with
    | [] => Err
    | t :: s1 =>
      match t with
      | Tzero => continue HIGHEST Zero s1
      | Tone => continue HIGHEST One s1
      | Tval b n => continue HIGHEST (Val b n) s1
      | Tprim n => continue HIGHEST (Prim n) s1
      | Ttmpl n => continue HIGHEST (Tmpl n) s1
      | Tkw Kthis => continue HIGHEST This s1
      | Tkw Knull => continue HIGHEST Null s1
      | Tkw Ktrue => continue HIGHEST True_ s1
      | Tkw Kfalse => continue HIGHEST False_ s1
      | Tpriv x =>
          (* rjs_parser.c:4939-4952 *)
          match s1 with
          | Tkw Kin :: _ =>
              if negb inf then Err
              else if REL <? prio then Err else continue HIGHEST (PrivRef x) s1
          | _ => Err
          end
      | Tid x =>
          (* parse_identifier, rjs_parser.c:4697-4728 *)
          match s1 with
          | Tarrow nl :: _ =>
              if prio <=? ASSI then
                (* on a new line the code stops before `=>', which no caller takes *)
                if nl then Err else continue HIGHEST (ArrowParams x) s1
              else continue HIGHEST (Id x) s1
          | _ => continue HIGHEST (Id x) s1
          end
      | Tlp =>
          (* parse_parentheses_or_params, rjs_parser.c:3193-3307 *)
          match fparens F s1 with
          | Ok es s2 =>
              match paren_content es with
              | None => Err
              | Some e =>
                  match s2 with
                  | Tarrow _ :: _ =>
                      if prio <=? ASSI then Err else continue HIGHEST (Parens e) s2
                  | _ => continue HIGHEST (Parens e) s2
                  end
              end
          | Err => Err
          | Out => Out
          end
      | Tinc _ => fpre F inf prio true s1
      | Tdec _ => fpre F inf prio false s1
      | Tkw Ksuper =>
          (* rjs_parser.c:5105-5113, parse_super_expr 3680-3749 *)
          if LH <? prio then Err else
          match s1 with
          | Tdot :: p :: s2 =>
              match prop_name p with
              | Some n => continue LH (SuperMember n) s2
              | None => Err
              end
          | Tlb :: s2 =>
              match fparse F true LOWEST s2 with
              | Ok e (Trb :: s3) => continue LH (SuperIndex e) s3
              | Out => Out
              | _ => Err
              end
          | Tlp :: s2 =>
              match fargs F false s2 with
              | Ok a s3 => continue LH (SuperCall a) s3
              | Err => Err
              | Out => Out
              end
          | _ => Err
          end
      | Tkw Knew =>
          if NEW <? prio then Err else
          match fnew F inf s1 with
          | Ok e s2 => continue NEW e s2
          | Err => Err
          | Out => Out
          end
      | _ =>
          match prefix t with
          | None => Err
          | Some (u, p) =>
              (* parse_unary_expr, rjs_parser.c:3878-3898 *)
              if p <? prio then Err else
              match fparse F inf UNARY s1 with
              | Ok e s2 =>
                  if match u with Udelete => delete_operand strict e | _ => true end
                  then continue p (Un u e) s2
                  else Err
              | Err => Err
              | Out => Out
              end
          end
      end
    end.

(** `++' and `--' before an operand (rjs_parser.c:5031-5049, 3878-3898). *)
Definition pre_step (inf : bool) (prio : nat) (inc : bool) (s : list tok) : res tree :=
      if UPDATE <? prio then Err else
      match fparse F inf UNARY s with
      | Ok e s2 =>
          if simple_target strict e then floop F inf prio UPDATE (Pre inc e) s2 else Err
      | Err => Err
      | Out => Out
      end.

(** parse_new_expr after `new' (rjs_parser.c:3815-3873). *)
Definition new_step (inf : bool) (s : list tok) : res tree :=
      match s with
      | Tdot :: Tid x :: s1 => if String.eqb x "target" then Ok NewTarget s1 else Err
      | Tdot :: _ => Err
      | Tkw Knew :: _ =>
          match fparse F inf NEW s with
          | Ok e s1 => Ok (New e []) s1
          | Err => Err
          | Out => Out
          end
      | _ =>
          match fparse F inf MEMBER s with
          | Ok e (Tlp :: s1) =>
              match fargs F false s1 with
              | Ok a s2 => Ok (New e a) s2
              | Err => Err
              | Out => Out
              end
          | Ok e s1 => Ok (New e []) s1
          | Err => Err
          | Out => Out
          end
      end.

(** The loop of parse_expr_prio (rjs_parser.c:5160-5669). *)
Definition loop_step (inf : bool) (prio last : nat) (acc : tree) (s : list tok) : res tree :=
    let continue lp t s' := floop F inf prio lp t s' in
    let stop := Ok acc s in
    match s with
    | [] => stop
    | t :: s1 =>
      match t with
      | Tdot =>
          if last <? LH then stop else
          match s1 with
          | Tpriv x :: s2 => continue LH (PrivMember acc x) s2
          | p :: s2 =>
              match prop_name p with
              | Some n => continue LH (Member acc n) s2
              | None => Err
              end
          | [] => Err
          end
      | Tlb =>
          if last <? LH then stop else
          match fparse F true LOWEST s1 with
          | Ok e (Trb :: s2) => continue LH (Index acc e) s2
          | Out => Out
          | _ => Err
          end
      | Tlp =>
          if (last <? LH) || (LH <? prio) then stop else
          match fargs F false s1 with
          | Ok a s2 => continue LH (Call acc a) s2
          | Err => Err
          | Out => Out
          end
      | Ttmpl n =>
          if last <? LH then stop else continue LH (Tagged acc n) s1
      | Tqdot =>
          if last <? LH then stop else
          match fchain F (OptBase acc) true s1 with
          | Ok e s2 => continue LH (Opt e) s2
          | Err => Err
          | Out => Out
          end
      | Tques =>
          (* parse_cond_expr, rjs_parser.c:4339-4385 *)
          if (last <? QUES) || (COND <? prio) then stop else
          match fparse F true ASSI s1 with
          | Ok a (Tcolon :: s2) =>
              match fparse F inf ASSI s2 with
              | Ok b s3 => continue COND (mk_cond acc a b) s3
              | Err => Err
              | Out => Out
              end
          | Out => Out
          | _ => Err
          end
      | Tas a =>
          (* parse_assi_expr, rjs_parser.c:4429-4486 *)
          if (last <? LH) || (ASSI <? prio) then stop else
          if simple_target strict acc then
            match fparse F inf ASSI s1 with
            | Ok r s2 => continue ASSI (mk_assign a acc r) s2
            | Err => Err
            | Out => Out
            end
          else Err
      | Tcomma =>
          if COMMA <=? prio then stop else
          match fparse F inf ASSI s1 with
          | Ok r s2 => continue COMMA (mk_comma acc r) s2
          | Err => Err
          | Out => Out
          end
      | Tinc nl =>
          if nl || (last <? LH) || (UPDATE <? prio) then stop else
          if simple_target strict acc then continue UPDATE (Post true acc) s1 else Err
      | Tdec nl =>
          if nl || (last <? LH) || (UPDATE <? prio) then stop else
          if simple_target strict acc then continue UPDATE (Post false acc) s1 else Err
      | Tarrow nl =>
          (* parse_arrow_function, rjs_parser.c:4491-4578 *)
          if nl || (ASSI <? prio) then stop else
          match acc with
          | ArrowParams x =>
              match fparse F inf ASSI s1 with
              | Ok b s2 => continue ASSI (Arrow x b) s2
              | Err => Err
              | Out => Out
              end
          | _ => Err
          end
      | _ =>
          match infix t with
          | None => stop
          | Some (o, need, p, q) =>
              if negb (op_allowed inf o) then stop else
              if negb (left_ok o need last) || (p <? prio) then stop else
              match fparse F inf q s1 with
              | Ok r s2 => continue p (mk_bin o acc r) s2
              | Err => Err
              | Out => Out
              end
          end
      end
    end.

(** The expressions of parse_parentheses_or_params after `(' up to `)'
    (rjs_parser.c:3213-3262); a `)' may follow a comma. *)
Definition parens_step (s : list tok) : res (list tree) :=
      match s with
      | Trp :: s1 => Ok [] s1
      | _ =>
          match fparse F true ASSI s with
          | Ok e (Trp :: s1) => Ok [e] s1
          | Ok e (Tcomma :: s1) =>
              match fparens F s1 with
              | Ok es s2 => Ok (e :: es) s2
              | Err => Err
              | Out => Out
              end
          | Out => Out
          | _ => Err
          end
      end.

(** parse_arguments after `(' (rjs_parser.c:3612-3677). *)
Definition args_step (has : bool) (s : list tok) : res (list (arg tree)) :=
      let next (a : arg tree) s' :=
        match s' with
        | Trp :: s1 => Ok [a] s1
        | Tcomma :: s1 =>
            match fargs F true s1 with
            | Ok es s2 => Ok (a :: es) s2
            | Err => Err
            | Out => Out
            end
        | _ => Err
        end in
      match s with
      | Trp :: s1 => Ok (if has then [Last] else []) s1
      | Tdots :: s1 =>
          match fparse F true ASSI s1 with
          | Ok e s2 => next (Spread e) s2
          | Err => Err
          | Out => Out
          end
      | _ =>
          match fparse F true ASSI s with
          | Ok e s2 => next (Arg e) s2
          | Err => Err
          | Out => Out
          end
      end.

(** parse_opt_expr after `?.' (rjs_parser.c:4799-4891); [first] tells the
    element right after `?.' from a later one, which needs a `.' before a name.
    A template in the chain is an error. *)
Definition chain_step (left : tree) (first : bool) (s : list tok) : res tree :=
      let name s' :=
        match s' with
        | Tpriv x :: s1 => fchain F (PrivMember left x) false s1
        | p :: s1 =>
            match prop_name p with
            | Some n => fchain F (Member left n) false s1
            | None => Err
            end
        | [] => Err
        end in
      match s with
      | Tlp :: s1 =>
          match fargs F false s1 with
          | Ok a s2 => fchain F (Call left a) false s2
          | Err => Err
          | Out => Out
          end
      | Tlb :: s1 =>
          match fparse F true LOWEST s1 with
          | Ok e (Trb :: s2) => fchain F (Index left e) false s2
          | Out => Out
          | _ => Err
          end
      | Ttmpl _ :: _ => Err
      | Tdot :: s1 => if first then Err else name s1
      | _ => if first then name s else Ok left s
      end.

End Steps.

Fixpoint fn (fuel : nat) : fns :=
  match fuel with
  | O => {| fparse := fun _ _ _ => Out; fpre := fun _ _ _ _ => Out;
            fnew := fun _ _ => Out; floop := fun _ _ _ _ _ => Out;
            fparens := fun _ => Out; fargs := fun _ _ => Out;
            fchain := fun _ _ _ => Out |}
  | S f => let F := fn f in
           {| fparse := parse_step F; fpre := pre_step F;
              fnew := new_step F; floop := loop_step F;
              fparens := parens_step F; fargs := args_step F;
              fchain := chain_step F |}
  end.

(** parse_expr (rjs_parser.c:5685-5688) with enough fuel. *)
Definition parse_expr (inf : bool) (s : list tok) : res tree :=
  fparse (fn (3 * List.length s + 3)) inf LOWEST s.

End Parser.
