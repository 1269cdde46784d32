(** Model of the declarations of a script and of delete in the global environment,
    and of the clashes of variables of eval.

    Source: /repo/src/lib/rjs_global_env.c lines 66-187 and 266-610 (the records of
    the global environment, rjs_env_has_var_declaration,
    rjs_env_has_restricted_global_property, rjs_env_can_declare_global_var and
    _function, rjs_env_create_global_var_binding and _function_binding),
    rjs_object_env.c lines 92-158 and 191-204,
    rjs_script.c lines 338-479 (rjs_global_declaration_instantiation),
    rjs_eval_opt.c lines 64-97 (clashes of the variables of eval).

    Simplifications.  The global object is an ordinary object: its own properties
    are a function from names, [inherited] tells which names its prototypes have.
    Of ValidateAndApplyPropertyDescriptor (rjs_object.c, areas Store and Obj) just
    the two shapes of descriptors used here are written out.  A step that would run
    code of the program (a setter, or a set that goes to the prototype) is the
    outcome [Script] of its own.  The hash table of the declared names is a
    predicate.  A lexical binding is its two flags.  Creating a function object
    succeeds; the function of a declaration is its value.  Names and values are
    numbers. *)
From Coq Require Import List ZArith Bool.
Import ListNotations.
Local Open Scope Z_scope.

Inductive val := Undef | V (n : Z).
Inductive prop := Data (v : val) (w e c : bool) | Acc (e c : bool).
(** a lexical binding: const, initialised *)
Record binding := mkB { b_const : bool; b_init : bool }.
Record glob := mkG {
  own : Z -> option prop; inherited : Z -> bool; extensible : bool;
  declared : Z -> bool;                 (* var_name_hash *)
  lexical : Z -> option binding }.
Inductive err := SyntaxError | TypeError | ReferenceError.
Inductive out (A : Type) := Ok (a : A) | Err (e : err) | Script.
Arguments Ok {A}. Arguments Err {A}. Arguments Script {A}.

Definition put {A} (f : Z -> A) (n : Z) (a : A) : Z -> A := fun m => if m =? n then a else f m.
Definition set_own (s : glob) (n : Z) (p : option prop) : glob :=
  mkG (put (own s) n p) (inherited s) (extensible s) (declared s) (lexical s).
Definition set_declared (s : glob) (n : Z) (b : bool) : glob :=
  mkG (own s) (inherited s) (extensible s) (put (declared s) n b) (lexical s).
Definition set_lexical (s : glob) (n : Z) (b : binding) : glob :=
  mkG (own s) (inherited s) (extensible s) (declared s) (put (lexical s) n (Some b)).

Definition has_own (s : glob) (n : Z) : bool := match own s n with Some _ => true | None => false end.
Definition has_lexical (s : glob) (n : Z) : bool := match lexical s n with Some _ => true | None => false end.
Definition configurable (p : prop) : bool := match p with Data _ _ _ c => c | Acc _ c => c end.
Definition same (a b : val) : bool :=
  match a, b with Undef, Undef => true | V x, V y => x =? y | _, _ => false end.

(** rjs_define_property_or_throw with the descriptor {value, writable, enumerable,
    configurable: del} *)
Definition define_full (s : glob) (n : Z) (v : val) (del : bool) : glob * out unit :=
  match own s n with
  | None => if extensible s then (set_own s n (Some (Data v true true del)), Ok tt) else (s, Err TypeError)
  | Some p =>
      if configurable p then (set_own s n (Some (Data v true true del)), Ok tt)
      else match p with
           | Data _ w e _ => if w && e && negb del then (set_own s n (Some (Data v w e false)), Ok tt) else (s, Err TypeError)
           | Acc _ _ => (s, Err TypeError)
           end
  end.
(** with the descriptor {value} *)
Definition define_value (s : glob) (n : Z) (v : val) : glob * out unit :=
  match own s n with
  | None => if extensible s then (set_own s n (Some (Data v false false false)), Ok tt) else (s, Err TypeError)
  | Some (Data v0 w e c) =>
      if c || w then (set_own s n (Some (Data v w e c)), Ok tt)
      else if same v v0 then (s, Ok tt) else (s, Err TypeError)
  | Some (Acc e c) => if c then (set_own s n (Some (Data v false e c)), Ok tt) else (s, Err TypeError)
  end.
(** rjs_set with the last argument RJS_FALSE *)
Definition set_sloppy (s : glob) (n : Z) (v : val) : glob * out unit :=
  match own s n with
  | Some (Data _ w e c) => if w then (set_own s n (Some (Data v w e c)), Ok tt) else (s, Ok tt)
  | _ => (s, Script)
  end.
Definition andthen (r : glob * out unit) (k : glob -> glob * out unit) : glob * out unit :=
  match r with (s, Ok _) => k s | _ => r end.

(** rjs_env_has_restricted_global_property, lines 308-339 *)
Definition restricted (s : glob) (n : Z) : bool :=
  match own s n with None => false | Some p => if configurable p then false else true end.
(** rjs_env_can_declare_global_var, lines 350-371 *)
Definition can_var (s : glob) (n : Z) : bool := if has_own s n then true else extensible s.
(** rjs_env_can_declare_global_function, lines 382-423 *)
Definition can_function (s : glob) (n : Z) : bool :=
  match own s n with
  | None => extensible s
  | Some p =>
      if configurable p then true
      else match p with Data _ w e _ => w && e | Acc _ _ => false end
  end.
(** rjs_env_create_global_var_binding, lines 434-475; rjs_env_initialize_binding of
    the object record is a set that is not strict (rjs_object_env.c:128-158) *)
Definition create_var (s : glob) (n : Z) (del : bool) : glob * out unit :=
  let r := if has_own s n then (s, Ok tt)
           else if extensible s then andthen (define_full s n Undef del) (fun s => set_sloppy s n Undef)
           else (s, Ok tt) in
  andthen r (fun s => (set_declared s n true, Ok tt)).
(** rjs_env_create_global_function_binding, lines 487-545 *)
Definition create_function (s : glob) (n : Z) (v : val) (del : bool) : glob * out unit :=
  let full := match own s n with None => true | Some p => configurable p end in
  andthen (if full then define_full s n v del else define_value s n v) (fun s =>
  andthen (set_sloppy s n v) (fun s => (set_declared s n true, Ok tt))).
(** global_env_op_create_mutable_binding and _immutable_binding, lines 79-104 *)
Definition create_lexical (s : glob) (n : Z) (const : bool) : glob * out unit :=
  if has_lexical s n then (s, Err ReferenceError) else (set_lexical s n (mkB const false), Ok tt).

Fixpoint each {A} (l : list A) (f : glob -> A -> glob * out unit) (s : glob) : glob * out unit :=
  match l with [] => (s, Ok tt) | a :: l => andthen (f s a) (each l f) end.
Definition check (b : bool) (e : err) (s : glob) : glob * out unit := if b then (s, Err e) else (s, Ok tt).

(** The bindings of the script: lexical names with const, the names of the variables
    (the functions are among them), the functions. *)
Record script := mkS { lexs : list (Z * bool); vars : list Z; funcs : list (Z * val) }.
(** rjs_global_declaration_instantiation, rjs_script.c lines 338-479 *)
Definition declare (p : script) (s : glob) : glob * out unit :=
  andthen (each (lexs p) (fun s x =>
    andthen (check (declared s (fst x)) SyntaxError s) (fun s =>
    andthen (check (has_lexical s (fst x)) SyntaxError s) (fun s =>
    check (restricted s (fst x)) SyntaxError s))) s) (fun s =>
  andthen (each (vars p) (fun s n => check (has_lexical s n) SyntaxError s) s) (fun s =>
  andthen (each (funcs p) (fun s f => check (negb (can_function s (fst f))) TypeError s) s) (fun s =>
  andthen (each (vars p) (fun s n => check (negb (can_var s n)) TypeError s) s) (fun s =>
  andthen (each (lexs p) (fun s x => create_lexical s (fst x) (snd x)) s) (fun s =>
  andthen (each (funcs p) (fun s f => create_function s (fst f) (snd f) false) s) (fun s =>
  each (vars p) (fun s n => create_var s n false) s)))))).

(** global_env_op_delete_binding, lines 146-187; the bindings of declarations of a
    script are not deletable (rjs_decl_env.c, area Env) *)
Definition delete (s : glob) (n : Z) : glob * bool :=
  if has_lexical s n then (s, false)
  else match own s n with
       | Some p => if configurable p then (set_declared (set_own s n None) n false, true) else (s, false)
       | None => (s, false)
       end.

(** *** Variables of eval *)
(** A scope between the running lexical scope and the one of variables: an object
    scope of [with] or a declarative one, and what rjs_env_has_binding answers for a
    name; [Throws] is RJS_ERR. *)
Inductive answer := No | Yes | Throws.
Record scope := mkScope { sc_with : bool; sc_holds : Z -> answer }.
(** the test [if ((r = ...))] takes RJS_ERR for a yes *)
Definition nonzero (a : answer) : bool := match a with No => false | _ => true end.
(** the loop over the scopes, rjs_eval_opt.c lines 80-97 *)
Fixpoint scopes_clash (chain : list scope) (vs : list Z) : bool :=
  match chain with
  | [] => false
  | e :: chain => if existsb (fun n => nonzero (sc_holds e n)) vs then true else scopes_clash chain vs
  end.
(** rjs_eval_declaration_instantiation, rjs_eval_opt.c lines 64-97: true if it throws
    a SyntaxError there.  [glob] is the global environment if variables go there. *)
Definition eval_clash (strict : bool) (global : option glob) (chain : list scope) (vs : list Z) : bool :=
  if strict then false
  else if match global with Some s => existsb (has_lexical s) vs | None => false end then true
  else scopes_clash chain vs.
