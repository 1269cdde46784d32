(** What ECMA-262 says of the declarations of a script (16.1.7) and of delete in the
    global environment (9.1.1.4.7), for an ordinary global object. *)
From Coq Require Import List ZArith Bool.
From Verif Require Import GlobModel.
Import ListNotations.
Local Open Scope Z_scope.

Definition names {A} (l : list (Z * A)) : list Z := map fst l.
Definition fixed (p : prop) : Prop := match p with Data _ _ _ c => c = false | Acc _ c => c = false end.

(** steps 3 and 4: a name is declared in two ways *)
Inductive clash (p : script) (s : glob) : Prop :=
| clash_var n : In n (names (lexs p)) -> declared s n = true -> clash p s
| clash_lex n b : In n (names (lexs p)) -> lexical s n = Some b -> clash p s
| clash_prop n q : In n (names (lexs p)) -> own s n = Some q -> fixed q -> clash p s
| clash_back n b : In n (vars p) \/ In n (names (funcs p)) -> lexical s n = Some b -> clash p s.
(** CanDeclareGlobalFunction is false: a property that can be neither replaced nor
    used as it is, or no place for it *)
Definition no_function (s : glob) (n : Z) : Prop :=
  (own s n = None /\ extensible s = false) \/
  (exists q, own s n = Some q /\ fixed q /\ forall v, q <> Data v true true false).
(** steps 8 and 10: only names that are not functions are tested as variables *)
Inductive no_place (p : script) (s : glob) : Prop :=
| no_place_function n : In n (names (funcs p)) -> no_function s n -> no_place p s
| no_place_var n : In n (vars p) -> ~ In n (names (funcs p)) -> own s n = None -> extensible s = false -> no_place p s.

(** the state after steps 16 to 18 *)
Record declared_state (p : script) (s s' : glob) : Prop := {
  ds_last : forall l n v r, funcs p = l ++ (n, v) :: r -> ~ In n (names r) ->
    own s' n = Some (Data v true true false);
  ds_old : forall n q, ~ In n (names (funcs p)) -> own s n = Some q -> own s' n = Some q;
  ds_var : forall n, ~ In n (names (funcs p)) -> own s n = None -> In n (vars p) ->
    own s' n = Some (Data Undef true true false);
  ds_other : forall n, ~ In n (names (funcs p)) -> own s n = None -> ~ In n (vars p) -> own s' n = None;
  ds_lex : forall n c, In (n, c) (lexs p) -> lexical s' n = Some (mkB c false);
  ds_lex_other : forall n, ~ In n (names (lexs p)) -> lexical s' n = lexical s n;
  ds_declared : forall n, declared s' n = true <-> declared s n = true \/ In n (vars p) \/ In n (names (funcs p));
  ds_extensible : extensible s' = extensible s;
  ds_inherited : forall n, inherited s' n = inherited s n }.

(** 9.1.1.4.7: true if there is nothing left with that name in the records *)
Definition delete_answer (s : glob) (n : Z) (b : bool) : Prop :=
  b = true <-> lexical s n = None /\ (forall q, own s n = Some q -> ~ fixed q).

(** 19.2.1.3, step 3: code that is not strict may not declare a variable over a
    lexical binding of the global scope or of a scope it is hoisted through; object
    scopes do not count *)
Definition eval_error (strict : bool) (global : option glob) (chain : list scope) (vs : list Z) : Prop :=
  strict = false /\
  exists n, In n vs /\
    ((exists s b, global = Some s /\ lexical s n = Some b) \/
     (exists e, In e chain /\ sc_with e = false /\ sc_holds e n = Yes)).
(** declarative scopes run no code *)
Definition quiet (chain : list scope) : Prop :=
  forall e n, In e chain -> sc_with e = false -> sc_holds e n <> Throws.
Definition with_free (chain : list scope) (vs : list Z) : Prop :=
  forall e n, In e chain -> sc_with e = true -> In n vs -> sc_holds e n = No.
