(** C86, C87: identifier resolution through the binding cache, and the reuse
    of the environment in tail calls. *)
Require Import List ZArith Lia Bool Arith.
Require Import Verif.EnvModel Verif.EnvSpec Verif.EnvProofs Verif.EnvSim Verif.EnvReuse.
Import ListNotations.

(** ** C86 *)

(** For code whose environments get exactly the names their scopes declare,
    every resolution, read, write and deletion gives what plain environment
    records give, however often the code runs and in whatever nesting. *)
Theorem C86_cache_transparent : forall T os l,
  wf_table T -> all_allowed T (s_start os) l ->
  run (start (map snd (t_refs T)) os) l = s_run (rnm T) (s_start os) l.
Proof. exact cache_transparent. Qed.
Print Assumptions C86_cache_transparent.

(** Such runs never touch memory they must not touch and never meet a failed
    assert other than those the plain records have. *)
Theorem C86_no_wild_access : forall T os l,
  wf_table T -> all_allowed T (s_start os) l ->
  forall k, nth_error (run (start (map snd (t_refs T)) os) l) k = Some OUB ->
            nth_error (s_run (rnm T) (s_start os) l) k = Some OUB.
Proof. intros T os l W A k H. rewrite <- (cache_transparent T os l W A). exact H. Qed.
Print Assumptions C86_no_wild_access.

(** A global scope (0), a function f with a variable a (1), a function g in it
    (2) that reads a and the global property x. *)
Definition tab : table :=
  mkTab (fun s => match s with 1 => Some 0 | 2 => Some 1 | _ => None end)
        (fun s => match s with 0 => SGlobal | _ => SDecl end)
        (fun s => match s with 1 => [7] | _ => [] end)
        [(1, 7); (2, 7); (2, 9)].

Definition objs0 : list (list (name * val)) := [[(9, Val 1)]].

Definition trace : list op :=
  [ New (KGlobal 0) 0 None; New KFunc 1 (Some 0); Create 1 0 false false false; Init 1 0 (Val 5);
    New KFunc 2 (Some 1); Resolve 2 1; Get 1 1 false; Resolve 2 2; Get 0 2 true;
    Put 1 0 (Val 6) false; ObjPut 0 9 (Val 3);
    New KFunc 2 (Some 1); Resolve 3 1; Get 1 1 false; Resolve 3 2; Get 0 2 true; Put 1 1 (Val 8) true;
    Resolve 2 1; Get 1 1 false ].

Lemma tab_wf : wf_table tab.
Proof.
  constructor.
  - intros s p. destruct s as [|[|[|s]]]; cbn; intros H; inversion H; lia.
  - intros s. destruct s; cbn; [auto|discriminate].
  - intros s. destruct s as [|[|s]]; cbn; repeat constructor; intros [].
  - intros s. destruct s as [|[|s]]; cbn; lia.
Qed.

Ltac slots :=
  repeat match goal with
    | H : In _ _ |- _ => vm_compute in H
    | H : False |- _ => destruct H
    | H : _ \/ _ |- _ => destruct H
    | H : ?a = ?b |- _ => is_var b; subst b
    | H : nth_error ?l ?i = Some _ |- _ => vm_compute in H; inversion H; subst; clear H
    end.

Ltac reach b pre post :=
  split; [cbn; lia|]; exists b; eexists; exists pre, post;
  split; [reflexivity|]; split; [reflexivity|]; split; [reflexivity|]; split;
  [ intros i en Hi Hn; slots; intros _ X; vm_compute in X; intuition discriminate
  | intros en Hn; slots; intros K; vm_compute; vm_compute in K; first [discriminate K | tauto] ].

Ltac resolv :=
  split; [cbn; lia|]; split; [eexists; split; reflexivity|];
  intros i Hi en Hn; vm_compute in Hi; slots; intros K; vm_compute in K; first [discriminate K | reflexivity].

Lemma trace_allowed : all_allowed tab (s_start objs0) trace.
Proof.
  unfold trace, all_allowed.
  split; [split; [cbn; auto|split; [reflexivity|intros _ i en H; destruct i; discriminate]]|].
  split; [split; [cbn; auto|split; [eexists; split; [reflexivity|split; [reflexivity|vm_compute; reflexivity]]
                                   |intros K; discriminate K]]|].
  split; [split; [reflexivity|split; [cbn; lia|eexists; split; [reflexivity|reflexivity]]]|].
  split; [reach 1 (@nil nat) [0]|].
  split; [split; [cbn; auto|split; [eexists; split; [reflexivity|split; [reflexivity|vm_compute; reflexivity]]
                                   |intros K; discriminate K]]|].
  split; [resolv|]. split; [reach 2 [2] [0]|].
  split; [resolv|]. split; [reach 2 [2; 1] (@nil nat)|].
  split; [reach 1 (@nil nat) [0]|].
  split; [exact I|].
  split; [split; [cbn; auto|split; [eexists; split; [reflexivity|split; [reflexivity|vm_compute; reflexivity]]
                                   |intros K; discriminate K]]|].
  split; [resolv|]. split; [reach 2 [2] [0]|].
  split; [resolv|]. split; [reach 2 [2; 1] (@nil nat)|].
  split; [reach 2 [2] [0]|].
  split; [resolv|]. split; [reach 2 [2] [0]|]. exact I.
Qed.

Example C86_witness :
  wf_table tab /\ all_allowed tab (s_start objs0) trace /\
  run (start (map snd (t_refs tab)) objs0) trace =
  [ OEnv (Some 0); OEnv (Some 1); OUnit; OUnit; OEnv (Some 2); OEnv (Some 1); OVal (Val 5);
    OEnv (Some 0); OVal (Val 1); OUnit; OUnit; OEnv (Some 3); OEnv (Some 1); OVal (Val 6);
    OEnv (Some 0); OVal (Val 3); OUnit; OEnv (Some 1); OVal (Val 8) ].
Proof.
  split; [exact tab_wf|]. split; [exact trace_allowed|]. vm_compute; reflexivity.
Qed.

(** Without that condition the claim fails.  In each case the run is that of
    a short program; scope 3 is the code of a direct eval.

    [var x = 1; function f(s) { eval(s); function g() { return x } return g() }
     f(""); f("var x = 2")]: the second g gets a new environment whose cache is
    on; the index cached by the first g skips the new variable. *)
Theorem C86_stale_index_refuted : exists refs os l,
  last (run (start (map snd refs) os) l) OUnit = OVal (Val 1) /\
  last (removelast (s_run (fun r => snd (nth r refs (0, 0))) (s_start os) l)) OUnit = OEnv (Some 3) /\
  last (s_run (fun r => snd (nth r refs (0, 0))) (s_start os)
          (removelast l ++ [Get 3 1 false])) OUnit = OVal (Val 2).
Proof.
  exists [(1, 9); (2, 9); (3, 9)], [[(9, Val 1)]],
    [ New (KGlobal 0) 0 None; New KFunc 1 (Some 0); New KFunc 2 (Some 1); Resolve 2 1; Get 0 1 false;
      New KFunc 1 (Some 0); New KDecl 3 (Some 3); Create 3 2 false false true; Init 3 2 Undef; Disable 3;
      Resolve 4 2; Put 3 2 (Val 2) false;
      New KFunc 2 (Some 3); Resolve 5 1; Get 0 1 false ].
  vm_compute. auto.
Qed.
Print Assumptions C86_stale_index_refuted.

(** [function outer() { let a = 1; return H(); function H() { let p = 10;
     function f(s) { eval(s); return a } f(""); return f("var y") } }]:
    the cache of the environment of f is off, that of H is still on, and H
    answers with its own first binding: 10 instead of 1. *)
Definition wrong_refs : list (nat * name) := [(1, 7); (2, 8); (3, 7); (4, 9)].
Definition wrong_prefix (p : list op) : list op :=
  [ New (KGlobal 0) 0 None; New KFunc 1 (Some 0); Create 1 0 false false false; Init 1 0 (Val 1);
    New KFunc 2 (Some 1) ] ++ p ++
  [ New KFunc 3 (Some 2); Resolve 3 2; Get 1 2 false;
    New KFunc 3 (Some 2); New KDecl 4 (Some 4); Create 4 3 false false true; Init 4 3 Undef; Disable 4 ].

Theorem C86_wrong_variable_refuted :
  let nm := fun r => snd (nth r wrong_refs (0, 0)) in
  let p := wrong_prefix [Create 2 1 false false false; Init 2 1 (Val 10)] in
  last (run (start (map snd wrong_refs) [[]]) (p ++ [Resolve 4 2])) OUnit = OEnv (Some 2) /\
  last (run (start (map snd wrong_refs) [[]]) (p ++ [Resolve 4 2; Get 2 2 false])) OUnit = OVal (Val 10) /\
  last (s_run nm (s_start [[]]) (p ++ [Resolve 4 2])) OUnit = OEnv (Some 1) /\
  last (s_run nm (s_start [[]]) (p ++ [Resolve 4 2; Get 1 2 false])) OUnit = OVal (Val 1).
Proof. vm_compute. auto. Qed.
Print Assumptions C86_wrong_variable_refuted.

(** The same program without [p]: H has no bindings, and the read is beyond
    the end of its vector. *)
Theorem C86_out_of_bounds_refuted :
  let nm := fun r => snd (nth r wrong_refs (0, 0)) in
  last (run (start (map snd wrong_refs) [[]]) (wrong_prefix [] ++ [Resolve 4 2])) OUnit = OUB /\
  last (s_run nm (s_start [[]]) (wrong_prefix [] ++ [Resolve 4 2])) OUnit = OEnv (Some 1).
Proof. vm_compute. auto. Qed.
Print Assumptions C86_out_of_bounds_refuted.

(** [var x = 1; function f() { x; eval("function x() {}"); return x } f()]:
    functions declared by eval leave the cache on. *)
Theorem C86_eval_function_refuted :
  let refs := [(1, 9); (3, 9)] in
  let nm := fun r => snd (nth r refs (0, 0)) in
  let l := [ New (KGlobal 0) 0 None; New KFunc 1 (Some 0); Resolve 1 0; Get 0 0 false;
             New KDecl 3 (Some 1); Create 1 1 false false true; Init 1 1 (Val 2); Resolve 1 0 ] in
  last (run (start (map snd refs) [[(9, Val 1)]]) l) OUnit = OEnv (Some 0) /\
  last (s_run nm (s_start [[(9, Val 1)]]) l) OUnit = OEnv (Some 1).
Proof. vm_compute. auto. Qed.
Print Assumptions C86_eval_function_refuted.

(** [function f() { eval("function x() {}"); for (let i = 0; i < 2; i ++) { x; delete x } }]
    (the loop body written flat): the second read goes through a freed
    binding. *)
Theorem C86_deleted_binding_refuted :
  let refs := [(1, 9); (3, 9)] in
  let nm := fun r => snd (nth r refs (0, 0)) in
  let l := [ New (KGlobal 0) 0 None; New KFunc 1 (Some 0); New KDecl 3 (Some 1);
             Create 1 1 false false true; Init 1 1 (Val 2);
             Resolve 1 0; Get 1 0 false; Resolve 1 0; Delete 1 0; Resolve 1 0 ] in
  last (run (start (map snd refs) [[]]) l) OUnit = OEnv (Some 1) /\
  last (run (start (map snd refs) [[]]) (l ++ [Get 1 0 false])) OUnit = OUB /\
  last (s_run nm (s_start [[]]) l) OUnit = OEnv None.
Proof. vm_compute. auto. Qed.
Print Assumptions C86_deleted_binding_refuted.

(** [x = 1; function f() { return x } f(); delete this.x; f()]: undefined
    instead of a ReferenceError. *)
Theorem C86_deleted_property_refuted :
  let refs := [(1, 9)] in
  let nm := fun r => snd (nth r refs (0, 0)) in
  let l := [ New (KGlobal 0) 0 None; New KFunc 1 (Some 0); Resolve 1 0; Get 0 0 false;
             ObjDel 0 9; New KFunc 1 (Some 0); Resolve 2 0 ] in
  last (run (start (map snd refs) [[(9, Val 1)]]) (l ++ [Get 0 0 false])) OUnit = OVal Undef /\
  last (s_run nm (s_start [[(9, Val 1)]]) l) OUnit = OEnv None.
Proof. vm_compute. auto. Qed.
Print Assumptions C86_deleted_property_refuted.

(** ** C87 *)

(** A tail call that empties the environment of the running call gives the
    results of one that makes a new environment, provided no environment still
    in use lies inside the old one and the old one itself is not used again.
    [map (ren_op e n) l] is the same rest of the program with the new
    environment, number [n], in the place of number [e]. *)
Theorem C87_reuse_unseen : forall T os l0 e l en L,
  wf_table T ->
  all_allowed T (s_start os) (l0 ++ Clear e :: l) ->
  let s := s_after (rnm T) (s_start os) l0 in
  let n := length (senvs s) in
  nth_error (senvs s) e = Some en ->
  free_of L s e ->
  (forall i, L i -> (i < n)%nat) ->
  Forall (uses L n) l ->
  exists rest,
    run (start (map snd (t_refs T)) os) (l0 ++ Clear e :: l) =
      s_run (rnm T) (s_start os) l0 ++ OUnit :: rest /\
    s_run (rnm T) (s_start os) (l0 ++ New KFunc (s_scope en) (s_outer en) :: map (ren_op e n) l) =
      s_run (rnm T) (s_start os) l0 ++ OEnv (Some n) :: map (ren_out e n) rest.
Proof. exact reuse_unseen. Qed.
Print Assumptions C87_reuse_unseen.

(** The tail call of f: its variable is created again, and a new g reads it. *)
Definition before : list op :=
  [ New (KGlobal 0) 0 None; New KFunc 1 (Some 0); Create 1 0 false false false; Init 1 0 (Val 5);
    New KFunc 2 (Some 1); Resolve 2 1; Get 1 1 false ].
Definition after : list op :=
  [ Create 1 0 false false false; Init 1 0 (Val 6); New KFunc 2 (Some 1); Resolve 3 1; Get 1 1 false ].

Lemma before_after_allowed : all_allowed tab (s_start objs0) (before ++ Clear 1 :: after).
Proof.
  unfold before, after, app, all_allowed.
  split; [split; [cbn; auto|split; [reflexivity|intros _ i en H; destruct i; discriminate]]|].
  split; [split; [cbn; auto|split; [eexists; split; [reflexivity|split; [reflexivity|vm_compute; reflexivity]]
                                   |intros K; discriminate K]]|].
  split; [split; [reflexivity|split; [cbn; lia|eexists; split; [reflexivity|reflexivity]]]|].
  split; [reach 1 (@nil nat) [0]|].
  split; [split; [cbn; auto|split; [eexists; split; [reflexivity|split; [reflexivity|vm_compute; reflexivity]]
                                   |intros K; discriminate K]]|].
  split; [resolv|]. split; [reach 2 [2] [0]|].
  split; [eexists; split; reflexivity|].
  split; [split; [reflexivity|split; [cbn; lia|eexists; split; [reflexivity|reflexivity]]]|].
  split; [reach 1 (@nil nat) [0]|].
  split; [split; [cbn; auto|split; [eexists; split; [reflexivity|split; [reflexivity|vm_compute; reflexivity]]
                                   |intros K; discriminate K]]|].
  split; [resolv|]. split; [reach 2 [2] [0]|]. exact I.
Qed.

Example C87_witness :
  all_allowed tab (s_start objs0) (before ++ Clear 1 :: after) /\
  free_of (fun i => i = 0 \/ i = 1) (s_after (rnm tab) (s_start objs0) before) 1 /\
  Forall (uses (fun i => i = 0 \/ i = 1) 3) after /\
  skipn 7 (run (start (map snd (t_refs tab)) objs0) (before ++ Clear 1 :: after)) =
    [OUnit; OUnit; OUnit; OEnv (Some 3); OEnv (Some 1); OVal (Val 6)].
Proof.
  split; [exact before_after_allowed|]. split; [|split; [|vm_compute; reflexivity]].
  - split; [auto|]. intros i en o [->| ->] H O; vm_compute in H; inversion H; subst; cbn in O;
      inversion O; subst; auto.
  - unfold after. repeat (apply Forall_cons; [intros i [<-|[]]; lia|]). apply Forall_nil.
Qed.

(** [function f(n, g) { if (n == 0) return g(); return f(n - 1, () => n) }
     f(1)]: the arrow function was made in the first call, so its n is 1.  It
    reads the reused environment: 0. *)
Theorem C87_captured_refuted :
  let nm := rnm tab in
  let first := [ New (KGlobal 0) 0 None; New KFunc 1 (Some 0); Create 1 0 false false false; Init 1 0 (Val 1) ] in
  (* ratjs: the arrow function holds environment 1 *)
  last (run (start (map snd (t_refs tab)) objs0)
    (first ++ [ Clear 1; Create 1 0 false false false; Init 1 0 (Val 0);
                New KFunc 2 (Some 1); Resolve 2 1; Get 1 1 false ])) OUnit = OVal (Val 0) /\
  (* the language: the second call has environment 2 *)
  last (s_run nm (s_start objs0)
    (first ++ [ New KFunc 1 (Some 0); Create 2 0 false false false; Init 2 0 (Val 0);
                New KFunc 2 (Some 1); Resolve 3 1; Get 1 1 false ])) OUnit = OVal (Val 1).
Proof. vm_compute. auto. Qed.
Print Assumptions C87_captured_refuted.

(** In a function with parameter expressions the variable environment is a
    plain declarative environment (bytecode set_var_env, rjs_bc_call.c:81-85,
    emitted at rjs_bc_gen.c:4505-4518), and clearing it as a function environment is a
    wild write. *)
Theorem C87_plain_env_refuted : exists m e en,
  nth_error (envs m) e = Some en /\ e_kind en = KDecl /\ snd (step m (Clear e)) = OUB.
Proof.
  exists (fst (step (start [] []) (New KDecl 0 None))), 0, (env_new (start [] []) KDecl 0 None).
  vm_compute. auto.
Qed.
Print Assumptions C87_plain_env_refuted.
