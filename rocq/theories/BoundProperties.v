(** Property C138: bound functions. *)
From Coq Require Import List ZArith Bool Lia.
From Verif Require Import BoundModel BoundSpec BoundProofs.
Import ListNotations.
Local Open Scope Z_scope.

(** *** C138: a function bound any number of times *)
(** the function is called with the receiver of the first bind and all arguments in order *)
Theorem C138_call : forall l i c this args,
  call (bind_all (Base i c) l) this args = mkCalled i (receiver l this) (arguments l ++ args).
Proof. exact call_all. Qed.
Print Assumptions C138_call.
(** it can be constructed if the function can; new.target is the function if it was one
    of the bound functions, and else stays *)
Theorem C138_construct : forall l i args nt,
  exists t, construct (bind_all (Base i true) l) args nt = Some (mkMade i (arguments l ++ args) t) /\
    ((In nt (numbers l) /\ t = i) \/ (~ In nt (numbers l) /\ t = nt)).
Proof. exact construct_ctor. Qed.
Print Assumptions C138_construct.
Theorem C138_no_constructor : forall l i args nt c,
  is_ctor (bind_all (Base i c) l) = c /\ construct (bind_all (Base i false) l) args nt = None.
Proof. intros l i args nt c. split; [exact (ctor_all l i c)|exact (construct_none l i args nt)]. Qed.
Print Assumptions C138_no_constructor.
(** bind takes the receiver and the arguments apart, as call does *)
Theorem C138_bind : forall f i th rest undef this args,
  call (bind f i (th :: rest) undef) this args = call f th (rest ++ args) /\
  call (bind f i [] undef) this args = call f undef args /\
  call_method f (th :: rest) undef = call f th rest /\ call_method f [] undef = call f undef [].
Proof. intros. cbn [bind call call_method]. rewrite !all_args_app. repeat split; reflexivity. Qed.
Print Assumptions C138_bind.
Theorem C138_length : forall z n,
  bound_length (Some (Fin z)) n = Fin (max0 (z - n)) /\
  bound_length (Some PInf) n = PInf /\ bound_length (Some NInf) n = Fin 0 /\ bound_length None n = Fin 0.
Proof. intros z n. split; [exact (length_max z n)|]. repeat split; reflexivity. Qed.
Print Assumptions C138_length.
Definition steps0 : list step := [(51, 1, [11; 12]); (52, 2, []); (53, 3, [13])].
Example C138_witness :
  call (bind_all (Base 50 true) steps0) 9 [14; 15] = mkCalled 50 1 [11; 12; 13; 14; 15] /\
  construct (bind_all (Base 50 true) steps0) [] 53 = Some (mkMade 50 [11; 12; 13] 50) /\
  construct (bind_all (Base 50 true) steps0) [14] 52 = Some (mkMade 50 [11; 12; 13; 14] 50) /\
  construct (bind_all (Base 50 true) steps0) [14] 99 = Some (mkMade 50 [11; 12; 13; 14] 99) /\
  bound_length (Some (Fin 3)) 5 = Fin 0.
Proof. repeat split; reflexivity. Qed.
