(** Properties C63 and C64: Promise.all, Promise.any and Promise.allSettled call
    their capability once, when every element has reported, with the values of
    the first reports in order. *)
From Coq Require Import List ZArith Bool Arith Lia.
Import ListNotations.
From Verif Require Import PromiseModel PromiseAllModel PromiseAllSpec PromiseAllProofs.

(** ** C63: Promise.all and Promise.any *)

Theorem C63_all_calls_resolve_once : forall l c, crun All start l = Some c ->
  (Z.of_nat (elems l) < 2 ^ 64 - 1)%Z -> outs c = expected All l.
Proof. intros. now apply outputs_expected. Qed.

Theorem C63_any_calls_reject_once : forall l c, crun Any start l = Some c ->
  (Z.of_nat (elems l) < 2 ^ 64 - 1)%Z -> outs c = expected Any l.
Proof. intros. now apply outputs_expected. Qed.

(** Two elements; the first reports from inside the loop and twice. *)
Definition reports (t : tag) : list act :=
  [ASlot; AElem; ACall 0 t (VPrim 5); ASlot; ACall 0 t (VPrim 6); AElem; AEnd;
   ACall 1 t (VPrim 7)].

Example C63_witness :
  crun All start (reports Ful) =
    Some (Comb 0 [EPlain (VPrim 5); EPlain (VPrim 7)] [(true, false); (true, false)] Ended
            [OResolve [EPlain (VPrim 5); EPlain (VPrim 7)]]) /\
  option_map outs (crun All start (firstn 7 (reports Ful))) = Some [] /\
  option_map outs (crun Any start (reports Rej)) =
    Some [OReject [EPlain (VPrim 5); EPlain (VPrim 7)]] /\
  expected All [AEnd] = [OResolve []] /\ expected Any [AEnd] = [OReject []] /\
  expected All (reports Ful) = [OResolve [EPlain (VPrim 5); EPlain (VPrim 7)]].
Proof. repeat split. Qed.

(** ** C64: Promise.allSettled *)

(** True when no element calls both its functions, as is the case for built-in
    promises (C19). *)
Theorem C64_settled_partial : forall l c, crun Settled start l = Some c ->
  (Z.of_nat (elems l) < 2 ^ 64 - 1)%Z -> one_sided l -> outs c = expected Settled l.
Proof. intros. now apply outputs_expected. Qed.

(** False in general: a "then" method that calls both functions it is given is
    counted twice, because the two functions do not share their flag. *)
Theorem C64_settled_refuted : exists l c, crun Settled start l = Some c /\
  first 1 l = None /\ expected Settled l = [] /\
  outs c = [OResolve [EStatus Rej (VPrim 6); EUndef]].
Proof.
  exists [ASlot; AElem; ASlot; AElem; AEnd; ACall 0 Ful (VPrim 5); ACall 0 Rej (VPrim 6)].
  eexists. repeat split.
Qed.

(** The other way round: every element has reported and nothing is resolved. *)
Theorem C64_settled_never_refuted : exists l c, crun Settled start l = Some c /\
  expected Settled l = [OResolve [EStatus Ful (VPrim 5); EStatus Ful (VPrim 7)]] /\
  outs c = [OResolve [EStatus Rej (VPrim 6); EUndef]] /\ left c = (2 ^ 64 - 1)%Z.
Proof.
  exists [ASlot; AElem; ASlot; ACall 0 Ful (VPrim 5); AElem; AEnd; ACall 0 Rej (VPrim 6);
          ACall 1 Ful (VPrim 7)].
  eexists. repeat split.
Qed.

Example C64_witness :
  option_map outs (crun Settled start
    [ASlot; AElem; ASlot; AElem; ACall 1 Rej (VPrim 2); AEnd; ACall 0 Ful (VPrim 1);
     ACall 0 Ful (VPrim 3)]) =
  Some [OResolve [EStatus Ful (VPrim 1); EStatus Rej (VPrim 2)]].
Proof. reflexivity. Qed.

Print Assumptions C63_all_calls_resolve_once.
Print Assumptions C63_any_calls_reject_once.
Print Assumptions C64_settled_partial.
Print Assumptions C64_settled_refuted.
Print Assumptions C64_settled_never_refuted.
