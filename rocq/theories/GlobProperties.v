(** Properties C133 to C135: declarations of scripts, delete in the global environment, eval. *)
From Coq Require Import List ZArith Bool Lia.
From Verif Require Import GlobModel GlobSpec GlobProofs.
Import ListNotations.
Local Open Scope Z_scope.

(** *** A global object: 1 is fixed and writable, 2 is configurable, 3 is fixed and
    read-only; 9 is inherited, 5 is a const of an earlier script, 1 is declared. *)
Definition g0 (ext : bool) : glob := {|
  own := fun n => if n =? 1 then Some (Data (V 10) true true false)
                  else if n =? 2 then Some (Acc false true)
                  else if n =? 3 then Some (Data (V 30) false false false) else None;
  inherited := fun n => n =? 9;
  extensible := ext;
  declared := fun n => n =? 1;
  lexical := fun n => if n =? 5 then Some (mkB true true) else None |}.
Definition script0 : script := mkS [(6, true); (7, false)] [1; 2; 4; 3] [(1, V 100); (2, V 200); (1, V 101)].

(** *** C133: a script declares all its names or none *)
(** with a SyntaxError nothing has changed, and it comes for clashes only *)
Theorem C133_syntax_error : forall p s s',
  NoDup (names (lexs p)) -> incl (names (funcs p)) (vars p) ->
  (declare p s = (s', Err SyntaxError) <-> s' = s /\ clash p s).
Proof. exact declare_syntax. Qed.
Print Assumptions C133_syntax_error.
(** with a TypeError nothing has changed, and it comes if a property cannot be made *)
Theorem C133_type_error : forall p s s',
  NoDup (names (lexs p)) -> incl (names (funcs p)) (vars p) ->
  (declare p s = (s', Err TypeError) <-> s' = s /\ ~ clash p s /\ no_place p s).
Proof. exact declare_type. Qed.
Print Assumptions C133_type_error.
(** else everything is there: functions, variables, lexical names *)
Theorem C133_declared : forall p s,
  NoDup (names (lexs p)) -> incl (names (funcs p)) (vars p) -> ~ clash p s -> ~ no_place p s ->
  exists s', declare p s = (s', Ok tt) /\ declared_state p s s'.
Proof. exact declare_done. Qed.
Print Assumptions C133_declared.
(** there is no other outcome; no code of the program runs *)
Theorem C133_outcomes : forall p s,
  NoDup (names (lexs p)) -> incl (names (funcs p)) (vars p) ->
  (exists s', declare p s = (s', Ok tt) /\ ~ clash p s /\ ~ no_place p s) \/
  declare p s = (s, Err SyntaxError) \/ declare p s = (s, Err TypeError).
Proof. exact declare_outcomes. Qed.
Print Assumptions C133_outcomes.

Example C133_witness :
  NoDup (names (lexs script0)) /\ incl (names (funcs script0)) (vars script0) /\
  snd (declare script0 (g0 true)) = Ok tt /\
  own (fst (declare script0 (g0 true))) 1 = Some (Data (V 101) true true false) /\
  own (fst (declare script0 (g0 true))) 2 = Some (Data (V 200) true true false) /\
  own (fst (declare script0 (g0 true))) 3 = Some (Data (V 30) false false false) /\
  own (fst (declare script0 (g0 true))) 4 = Some (Data Undef true true false) /\
  lexical (fst (declare script0 (g0 true))) 6 = Some (mkB true false) /\
  declared (fst (declare script0 (g0 true))) 4 = true.
Proof.
  split; [repeat constructor; cbn; intuition lia|].
  split; [intros n; cbn; intuition lia|]. repeat split; reflexivity.
Qed.
Example C133_witness_errors :
  snd (declare script0 (g0 false)) = Err TypeError /\
  snd (declare (mkS [(1, true)] [] []) (g0 true)) = Err SyntaxError /\
  snd (declare (mkS [(3, true)] [] []) (g0 true)) = Err SyntaxError /\
  snd (declare (mkS [(2, true)] [] []) (g0 true)) = Ok tt /\
  snd (declare (mkS [] [5] []) (g0 true)) = Err SyntaxError /\
  snd (declare (mkS [] [3] [(3, V 1)]) (g0 true)) = Err TypeError.
Proof. repeat split; reflexivity. Qed.

(** *** C134: delete of a global name *)
Theorem C134_state : forall s n s' b, delete s n = (s', b) ->
  (b = false -> s' = s) /\
  (b = true -> own s' n = None /\ declared s' n = false) /\
  (forall m, m <> n -> own s' m = own s m /\ declared s' m = declared s m) /\
  lexical s' = lexical s /\ inherited s' = inherited s /\ extensible s' = extensible s.
Proof. exact delete_state. Qed.
Print Assumptions C134_state.
(** the answer is right if one of the two records holds the name *)
Theorem C134_answer_partial : forall s n s' b, delete s n = (s', b) ->
  (own s n <> None \/ lexical s n <> None) -> delete_answer s n b.
Proof. exact delete_answer_own. Qed.
Print Assumptions C134_answer_partial.
(** but a name that the global object inherits cannot be deleted, and the answer is false *)
Theorem C134_answer_refuted :
  exists s n s' b, inherited s n = true /\ delete s n = (s', b) /\ ~ delete_answer s n b.
Proof.
  exists (g0 true), 9, (g0 true), false. split; [reflexivity|]. split; [reflexivity|].
  intros [_ H]. assert (K : false = true); [|discriminate]. apply H. split; [reflexivity|]. intros q Q. discriminate.
Qed.
Print Assumptions C134_answer_refuted.
Example C134_witness :
  snd (delete (g0 true) 2) = true /\ snd (delete (g0 true) 1) = false /\ snd (delete (g0 true) 5) = false.
Proof. repeat split; reflexivity. Qed.

(** *** C135: variables of eval and the scopes they are hoisted through *)
Definition block (l : list Z) : scope := mkScope false (fun n => if existsb (Z.eqb n) l then Yes else No).
Definition with_of (l : list Z) : scope := mkScope true (fun n => if existsb (Z.eqb n) l then Yes else No).
Theorem C135_found : forall strict global chain vs,
  eval_error strict global chain vs -> eval_clash strict global chain vs = true.
Proof. exact eval_clash_complete. Qed.
Print Assumptions C135_found.
(** exact if no object scope holds one of the names *)
Theorem C135_exact_partial : forall strict global chain vs, quiet chain -> with_free chain vs ->
  (eval_clash strict global chain vs = true <-> eval_error strict global chain vs).
Proof. exact eval_clash_iff. Qed.
Print Assumptions C135_exact_partial.
(** with ({x: 1}) eval("var x") is a SyntaxError *)
Theorem C135_exact_refuted : exists global chain vs, quiet chain /\
  eval_clash false global chain vs = true /\ ~ eval_error false global chain vs.
Proof.
  exists (Some (g0 true)), [with_of [1]], [1]. split; [|split; [reflexivity|]].
  - intros e n [<-|[]] K; discriminate.
  - intros (_ & n & [<-|[]] & [(s & b & Q & B)|(e & [<-|[]] & K & _)]); [|discriminate].
    inversion Q; subst s. discriminate.
Qed.
Print Assumptions C135_exact_refuted.
Example C135_witness :
  quiet [block [6]; with_of [7]; block [8]] /\ with_free [block [6]; with_of [7]; block [8]] [8; 4] /\
  eval_clash false (Some (g0 true)) [block [6]; with_of [7]; block [8]] [8; 4] = true /\
  eval_clash false (Some (g0 true)) [block [6]; with_of [7]] [8; 4] = false /\
  eval_clash false (Some (g0 true)) [] [5] = true /\
  eval_clash true (Some (g0 true)) [block [6]] [5; 6] = false.
Proof.
  split; [|split; [|repeat split; reflexivity]].
  - intros e n [<-|[<-|[<-|[]]]] _; cbn; destruct (_ || _); discriminate.
  - intros e n [<-|[<-|[<-|[]]]] K [<-|[<-|[]]]; try discriminate; reflexivity.
Qed.
