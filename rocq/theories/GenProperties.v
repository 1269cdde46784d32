(** * Generators and async generators: properties C95 and C96 *)

From Coq Require Import List Bool Arith.
From Verif Require Import GenModel GenSpec GenProofs.
Import ListNotations.

(** ** C95: generators *)

(** Every sequence of method calls and stretches of the body gives the
    standard's results, calls and finished states. *)
Theorem C95_conforms : forall A w l,
  let c := grun A (gstart A w) l in
  let z := z_run A (z_start A w) l in
  glog A c = slog A z /\ gwd A c = swd A z /\ gbd A c = sbd A z /\
  (forall i, gmd A c = Run A i <-> pl A z = Running A i) /\
  (gmd A c = Idle A /\ gst A c = Completed <-> pl A z = Over A) /\
  (gmd A c = Idle A /\ gst A c = Start <-> pl A z = AtStart A).
Proof.
  intros A w l c z. pose proof (sync_conforms A w l) as E. fold c z in E.
  pose proof (sync_rest A w l) as R. fold c in R. unfold at_rest in R.
  rewrite <- E. cbn. unfold place_of.
  repeat split; try (intros (-> & ->); reflexivity);
    try (intros ->; reflexivity);
    destruct (gmd A c); try congruence; try (intros X; inversion X; reflexivity);
    destruct (gst A c); try contradiction; try congruence; try reflexivity;
    destruct (gip A c), (git A c); congruence.
Qed.
Print Assumptions C95_conforms.

(** No assertion fails. *)
Theorem C95_no_assertion : forall A w l,
  (forall b i w, match snd (body A b i w) with EAwait _ => False | _ => True end) ->
  gmd A (grun A (gstart A w) l) <> Bad A.
Proof. exact sync_never_bad. Qed.
Print Assumptions C95_no_assertion.

(** A finished generator stays finished and runs nothing. *)
Theorem C95_finished : forall A w l k v,
  let c := grun A (gstart A w) l in
  gmd A c = Idle A -> gst A c = Completed ->
  let c' := gact A c (Some (k, v)) in
  gst A c' = Completed /\ gmd A c' = Idle A /\ gwd A c' = gwd A c /\
  glog A c' = glog A c ++ [match k with
                           | KNext => Result A (undef A) true
                           | KRet => Result A v true
                           | KThrow => Thrown A v
                           end].
Proof. exact sync_finished. Qed.
Print Assumptions C95_finished.

(** ** C96: async generators *)

(** The code is the standard's state machine with three deviations. *)
Theorem C96_conforms_actual : forall A w l,
  g A (run A (start A w) l) = sg A (s_run A all_deviations (s_start A w) l).
Proof. exact conforms_actual. Qed.
Print Assumptions C96_conforms_actual.

(** Where none of them can show, it is the standard's. *)
Theorem C96_conforms_guarded : forall A w l,
  body_plain A -> always_resolves A \/ no_star A -> Forall (action_plain A) l ->
  g A (run A (start A w) l) = sg A (s_run A standard (s_start A w) l).
Proof. exact conforms_guarded. Qed.
Print Assumptions C96_conforms_guarded.

(** Requests are answered once each, in the order they were made. *)
Theorem C96_answers_in_order : forall A w l,
  let x := g A (run A (start A w) l) in
  answered (log A x) ++ map (r_id A) (q A x) = requested (log A x) /\
  requested (log A x) = seq 0 (nid A x).
Proof. exact answers_in_order. Qed.
Print Assumptions C96_answers_in_order.

Theorem C96_no_assertion : forall A w l, md A (g A (run A (start A w) l)) <> Bad A.
Proof. exact never_bad. Qed.
Print Assumptions C96_no_assertion.

(** An unanswered request is never left without something that goes on. *)
Theorem C96_nothing_forgotten : forall A w l,
  let x := g A (run A (start A w) l) in
  q A x <> [] ->
  (exists i, md A x = Run A i /\ wait A x = false /\ rwait A x = false) \/
  (md A x = Idle A /\ wait A x = true /\ rwait A x = false) \/
  (md A x = Idle A /\ wait A x = false /\ rwait A x = true).
Proof. exact nothing_forgotten. Qed.
Print Assumptions C96_nothing_forgotten.

(** ** Concrete worlds *)

(** Values are numbers, 0 is undefined, 1 a TypeError, request n's promise is
    100 + n; the world lists the calls made.  [bad] cannot be made a promise.
    Iterators are numbers: their [next] gives the result object 20 (not done,
    value 21), their [throw] method the object 30 (done, value 31), their
    [return] method the object 40 (not done, value 41). *)
Definition demo (bad : nat) (b : nat -> inp nat -> event nat) : world := {|
  W := list nat; V := nat; B := nat; I := nat;
  undef := 0; terr := 1; promise := fun n => 100 + n;
  body0 := 0;
  body := fun n i w => (w, S n, b n i);
  w_resolve := fun v w => (w, if (bad <? 90) && (v =? bad) then Some 77 else None);
  w_iter := fun v w => (w ++ [v], inl 3);
  w_next := fun it v w => (w ++ [v], inl 20);
  w_method := fun it k w => (w, match k with KNext => inl None | KThrow => inl (Some 30) | KRet => inl (Some 40) end);
  w_call := fun m it v w => (w ++ [m], inl m);
  is_object := fun v => 20 <=? v;
  w_done := fun v w => (w, inl (v =? 30));
  w_value := fun v w => (w, inl (S v)) |}.

(** [yield 5] (a thrown exception is yielded), an await of what came, [yield*]
    and the end. *)
Definition body1 (n : nat) (i : inp nat) : event nat :=
  match n, i with
  | _, IRet v => EDone v
  | 0, _ => EYield 5
  | 1, INext v => EAwait (v + 6)
  | 1, IThrow v => EYield v
  | 2, _ => EStar 7
  | 3, INext v => EReturn false v
  | _, IThrow v => EThrow v
  | _, _ => EDone 8
  end.

Definition D1 := demo 99 body1.

Example C96_witness : body_plain D1 /\ always_resolves D1 /\
  let l := [Call D1 KNext 0; Tick D1; Settle D1 true 5; Call D1 KNext 0; Tick D1; Call D1 KRet 9;
            Settle D1 true 6; Tick D1; Settle D1 true 20; Settle D1 true 9; Settle D1 true 40] in
  Forall (action_plain D1) l /\
  log D1 (g D1 (run D1 (start D1 []) l)) =
    [LReq D1 0 KNext 0; LAns D1 0 (Fulfilled D1 5 false);
     LReq D1 1 KNext 0; LReq D1 2 KRet 9;
     LAns D1 1 (Fulfilled D1 21 false); LAns D1 2 (Fulfilled D1 41 false)] /\
  wd D1 (g D1 (run D1 (start D1 []) l)) = [7; 0; 40].
Proof.
  split; [|split; [intros v w; reflexivity|]].
  - intros b i w. cbn. destruct b as [|[|[|[|b]]]], i; exact Logic.I || reflexivity.
  - split; [repeat (apply Forall_cons; [exact Logic.I || reflexivity|]); apply Forall_nil|].
    split; reflexivity.
Qed.

Definition D2 := demo 99 (fun n i => match body1 n i with EAwait v => EYield v | e => e end).

Example C95_witness :
  (forall b i w, match snd (body D2 b i w) with EAwait _ => False | _ => True end) /\
  let c := grun D2 (gstart D2 []) [Some (KNext, 0); None; Some (KThrow, 9); None; Some (KNext, 4); None;
                                   Some (KNext, 2); Some (KThrow, 3); None; None; Some (KNext, 1)] in
  glog D2 c = [Result D2 5 false; Result D2 9 false; Inner D2 20; Inner D2 20; Result D2 31 true; Result D2 0 true] /\
  gwd D2 c = [7; 0; 2; 30] /\ gst D2 c = Completed /\ gmd D2 c = Idle D2.
Proof.
  split.
  - intros b i w. cbn. destruct b as [|[|[|[|b]]]], i; exact Logic.I.
  - repeat split; reflexivity.
Qed.

(** A request [next(8)] made while the body runs to its end gets 8, not
    undefined. *)
Theorem C96_drained_refuted : exists A w l,
  body_plain A /\ always_resolves A /\
  log A (g A (run A (start A w) l)) <> log A (sg A (s_run A standard (s_start A w) l)).
Proof.
  set (A := demo 99 (fun n _ => match n with 0 => EAwait 3 | _ => EDone 9 end)).
  exists A, [], [Call A KNext 0; Tick A; Call A KNext 8; Settle A true 3; Tick A].
  split; [intros b i w; destruct b; exact Logic.I|]. split; [intros v w; reflexivity|].
  intros E. vm_compute in E. discriminate.
Qed.
Print Assumptions C96_drained_refuted.

(** [return f()] gives what [f] returned: a promise is not awaited. *)
Theorem C96_tail_refuted : exists A w l,
  always_resolves A /\ no_star A /\ Forall (action_plain A) l /\
  log A (g A (run A (start A w) l)) <> log A (sg A (s_run A standard (s_start A w) l)).
Proof.
  set (A := demo 99 (fun n i => match n, i with 0, _ => EReturn true 42 | _, IRet v => EDone v | _, _ => EDone 0 end)).
  exists A, [], [Call A KNext 0; Tick A; Tick A].
  split; [intros v w; reflexivity|].
  split; [intros b i w; destruct b as [|b]; [exact Logic.I|destruct i; exact Logic.I]|].
  split; [repeat (apply Forall_cons; [exact Logic.I || reflexivity|]); apply Forall_nil|].
  intros E. vm_compute in E. discriminate.
Qed.
Print Assumptions C96_tail_refuted.

(** During [yield*], [return(v)] with a value that cannot be made a promise
    throws in the body; the inner iterator's [throw] is not called. *)
Theorem C96_star_refuted : exists A w l,
  body_plain A /\ Forall (action_plain A) l /\
  wd A (g A (run A (start A w) l)) <> wd A (sg A (s_run A standard (s_start A w) l)).
Proof.
  set (A := demo 13 (fun n _ => match n with 0 => EStar 7 | _ => EDone 9 end)).
  exists A, [], [Call A KNext 0; Tick A; Settle A true 20; Call A KRet 13].
  split; [intros b i w; destruct b; exact Logic.I|].
  split; [repeat (apply Forall_cons; [exact Logic.I || reflexivity|]); apply Forall_nil|].
  intros E. vm_compute in E. discriminate.
Qed.
Print Assumptions C96_star_refuted.
