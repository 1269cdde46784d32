(** What linking and evaluating a graph of modules has to achieve, independent
    of the depth first search of the engine. *)

From Coq Require Import ZArith List Relations.
From Verif Require Import ModModel.
Import ListNotations.

Section Spec.
Variable rq : nat -> list nat.

(** [reach a b]: [b] is [a] or is requested directly or indirectly by [a]. *)
Definition reach : nat -> nat -> Prop := clos_refl_trans nat (fun a b => In b (rq a)).

(** Members of one cycle. *)
Definition cyclic (a b : nat) : Prop := reach a b /\ reach b a.

(** In the list of actions [l] (the first action first) every module [x] comes
    after the modules of [due] it requests, unless these depend on [x]. *)
Definition in_order (due : nat -> Prop) (l : list nat) : Prop :=
  forall a x b, l = a ++ x :: b ->
    forall y, In y (rq x) -> due y -> ~ reach y x -> In y a.

(** A finite set of modules with everything they request. *)
Definition closed (U : list nat) : Prop :=
  NoDup U /\ forall x y, In x U -> In y (rq x) -> In y U.
End Spec.

(** The modules initialised, started and finished, the first one first. *)
Definition inits (l : list event) : list nat :=
  flat_map (fun e => match e with Init m => [m] | _ => [] end) (rev l).
Definition starts (l : list event) : list nat :=
  flat_map (fun e => match e with Start m => [m] | _ => [] end) (rev l).
Definition finishes (l : list event) : list nat :=
  flat_map (fun e => match e with Finish m => [m] | _ => [] end) (rev l).

Definition linked (v : status) : bool :=
  match v with Linked | EvalAsync | Evaluated => true | _ => false end.

(** The fields that linking leaves alone. *)
Definition rest (r : modrec) := (aeval r, pend r, root r, err r, parents r, top r, live r).

(** The state of a module between two operations when no module awaits: linked
    and not touched by evaluation, evaluated without an error together with all
    it requests and known to belong to the cycle of its root, or evaluated with
    an error that is kept. *)
Definition calm1 (rq : nat -> list nat) (s : st) (x : nat) : Prop :=
  let r := mods s x in
  (stat r = Linked /\ aeval r = 0 /\ pend r = 0%Z /\ err r = None /\ top r = None) \/
  (stat r = Evaluated /\ err r = None /\ (top r = None \/ top r = Some Resolved) /\
   (exists q, root r = Some q /\ cyclic rq q x /\
      stat (mods s q) = Evaluated /\ err (mods s q) = None /\ aeval (mods s q) = 0) /\
   forall y, In y (rq x) -> stat (mods s y) = Evaluated /\ err (mods s y) = None) \/
  (stat r = Evaluated /\ exists e, err r = Some e /\ root r = Some x /\
     (top r = None \/ top r = Some (Rejected e))).
Definition calm (rq : nat -> list nat) (U : list nat) (s : st) : Prop :=
  forall x, In x U -> calm1 rq s x.

(** The events of running bodies to their ends, one after the other. *)
Definition run_all (l : list nat) : list event := flat_map (fun x => [Start x; Finish x]) l.

(** What evaluating [m] has to achieve when no module awaits; [r] is the module
    that keeps the promise.  Either every linked module that [m] needs ran exactly
    once, in order, and the promise is resolved; or the promise is rejected with
    the error of a module that [m] needs, which failed now or earlier, and only
    modules that [m] needs ran, in order, up to the one that failed; none of
    them requests a module that failed earlier, and no module counts as evaluated
    without an error unless it ran. *)
Definition evaluated (rq : nat -> list nat) (body : nat -> option nat) (U : list nat) (m r : nat) (s s' : st) : Prop :=
  calm rq U s' /\ cyclic rq m r /\ cnt s' = cnt s /\
  (forall x, ~ (In x U /\ stat (mods s x) = Linked /\ reach rq m x) -> x <> r -> mods s' x = mods s x) /\
  ((exists new,
     top (mods s' r) = Some Resolved /\
     log s' = rev (run_all new) ++ log s /\ NoDup new /\
     (forall x, In x new <-> stat (mods s x) = Linked /\ reach rq m x) /\
     (forall x, In x new -> body x = None) /\
     in_order rq (fun y => stat (mods s y) = Linked) new /\
     forall x, reach rq m x -> stat (mods s' x) = Evaluated /\ err (mods s' x) = None) \/
  (exists e new bad,
     top (mods s' r) = Some (Rejected e) /\ stat (mods s' r) = Evaluated /\ err (mods s' r) = Some e /\
     (exists x, reach rq m x /\ (err (mods s x) = Some e \/ (stat (mods s x) = Linked /\ body x = Some e))) /\
     log s' = rev (run_all new ++ flat_map (fun x => [Start x; Fail x e]) bad) ++ log s /\
     length bad <= 1 /\ NoDup (new ++ bad) /\
     (forall x, In x (new ++ bad) -> stat (mods s x) = Linked /\ reach rq m x /\ stat (mods s' x) = Evaluated) /\
     (forall x, In x new -> body x = None) /\ (forall x, In x bad -> body x = Some e) /\
     (forall x y, In x (new ++ bad) -> In y (rq x) -> err (mods s y) = None) /\
     (forall x, stat (mods s x) = Linked -> stat (mods s' x) = Evaluated -> err (mods s' x) = None -> In x (new ++ bad)) /\
     in_order rq (fun y => stat (mods s y) = Linked) (new ++ bad))).

(** A program that imports modules one after the other: each is linked and, when
    that succeeds, evaluated. *)
Fixpoint imports (G : graph) (f : nat) (l : list nat) : M unit :=
  match l with
  | [] => ret tt
  | m :: l' =>
      fun s =>
        match link G f m s with
        | (Ok _, s1) => (evaluate G f m ;;; imports G f l') s1
        | (Thrown _, s1) => imports G f l' s1
        | (Abort, s1) => (Abort, s1)
        | (NoFuel, s1) => (NoFuel, s1)
        end
  end.
