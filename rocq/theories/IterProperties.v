(** Properties C120 to C124: the consumers of iterators. *)
From Coq Require Import List ZArith Bool Lia.
From Verif Require Import MethModel IterModel IterSpec IterProofs.
Import ListNotations.
Local Open Scope Z_scope.

(** *** A world with one iterator: it gives the values [value 1] ... [value n].  The
    state counts the calls of next and lists what was added and each call of
    return, newest first. *)
Inductive event := Added (l : list val) | Created (k : Z) (v : val) | Returned | LengthSet (k : Z).
Definition st := (Z * list event)%type.
Definition note (e : event) (s : st) : st := (fst s, e :: snd s).
Definition toy (n : Z) (value : Z -> out val) (next_fails : Z -> bool) (add_fails set_fails : bool) : iworld := {|
  IW := st;
  i_method := fun v m => ret (match m with MIterator => if match v with Ref 0 => true | _ => false end then Ref 5 else Undef
                                         | MReturn => Ref 9 end);
  i_get := fun v k s =>
    match k with
    | KNext => (s, Ok (Ref 2))
    | KDone => (s, Ok (Bool (n <? fst s)))
    | KValue => (s, value (fst s))
    | KAdd | KSet => (s, Ok (Ref 6))
    | KAt i => (s, Ok (Num (10 + i)))
    end;
  i_call := fun f this args s =>
    match f with
    | Ref 5 => (s, Ok (Ref 1))
    | Ref 2 => if next_fails (fst s + 1) then (s, Throw (User (Num 8))) else ((fst s + 1, snd s), Ok (Ref 3))
    | Ref 6 => if add_fails then (s, Throw (User (Num 9))) else (note (Added args) s, Ok Undef)
    | Ref 9 => (note Returned s, Ok (Ref 3))
    | _ => (s, Ok Undef)
    end;
  i_construct := fun _ _ => ret (Ref 7);
  i_array := fun _ => ret (Ref 7);
  i_hash := fun _ => ret (Ref 7);
  i_create := fun a k v s => (note (Created k v) s, Ok tt);
  i_set_len := fun a k s => if set_fails then (s, Throw TypeError) else (note (LengthSet k) s, Ok tt);
  i_len := fun _ => ret n;
  i_entry := fun t k v s => if add_fails then (s, Throw (User (Num 9))) else (note (Added [k; v]) s, Ok tt);
  i_object := fun v => v;
  i_truthy := fun v => match v with Bool b => b | _ => false end;
  i_callable := fun v => match v with Ref _ => true | _ => false end;
  i_ctor := fun v => match v with Ref 7 => true | _ => false end
|}.
Definition nums (k : Z) : out val := Ok (Num k).
Definition objs (k : Z) : out val := Ok (Ref (100 + k)).
Definition never (k : Z) : bool := false.

Lemma toy_sound : forall n value a b, (forall k e, value k <> Throw e) -> sound_iterators (toy n value never a b) (Ref 0).
Proof.
  intros n value a b V method s s' i O s0 s1 e.
  assert (I : i = (Ref 1, Ref 2) \/ i = (Ref 3, Ref 2)).
  { revert O. unfold s_open, bind, s_call0.
    destruct (i_callable (toy n value never a b) method); [|discriminate].
    assert (R : forall t x, snd (i_call (toy n value never a b) method (Ref 0) [] t) = Ok x ->
      x = Undef \/ x = Ref 1 \/ x = Ref 3).
    { intros t x. cbn. destruct method; cbn; try (intros [= <-]; auto; fail).
      destruct x0 as [|p|p]; cbn; try (intros [= <-]; auto; fail).
      repeat match goal with
       | |- context [match ?q with xH => _ | xI _ => _ | xO _ => _ end] => destruct q; cbn; try (intros [= <-]; auto; fail)
       end.
      destruct a; cbn; [discriminate|]. intros [= <-]; auto. }
    pose proof (R s) as R0. destruct (i_call (toy n value never a b) method (Ref 0) [] s) as [t [x|x| |]]; try discriminate.
    destruct (R0 x eq_refl) as [->|[->| ->]]; cbn; intros H; inversion H; auto. }
  unfold s_next_value, bind, s_call0.
  assert (N : s_call0 (toy n value never a b) (Ref 2) (fst i) s0 = ((fst s0 + 1, snd s0), Ok (Ref 3))) by reflexivity.
  replace (snd i) with (Ref 2) by (destruct I as [->| ->]; reflexivity).
  unfold s_call0 in N. rewrite N. cbn. destruct (n <? fst s0 + 1); cbn; [discriminate|].
  destruct (value (fst s0 + 1)) eqn:E; cbn; try discriminate. destruct (V _ _ E).
Qed.

(** *** C120: sets, maps and Object.fromEntries *)
Theorem C120_set_partial : forall w fuel nt iterable s,
  sound_iterators w iterable -> set_new w fuel nt iterable s = s_set w (just_throw w) fuel nt iterable s.
Proof. intros. apply set_partial; assumption. Qed.
Theorem C120_map_partial : forall w fuel nt iterable s,
  sound_iterators w iterable -> map_new w fuel nt iterable s = s_map w (just_throw w) fuel nt iterable s.
Proof. intros. apply map_partial; assumption. Qed.
Theorem C120_entries_partial : forall w fuel target iterable s,
  sound_iterators w iterable ->
  add_entries w fuel target iterable s = s_add_entries w (just_throw w) fuel iterable (i_entry w target) s.
Proof. intros. apply entries_partial; assumption. Qed.
(** in every world: the only difference is that a failed iterator is closed *)
Theorem C120_actual : forall w fuel a iterable s,
  set_new w fuel a iterable s = s_set w (closes w) fuel a iterable s /\
  map_new w fuel a iterable s = s_map w (closes w) fuel a iterable s /\
  add_entries w fuel a iterable s = s_add_entries w (closes w) fuel iterable (i_entry w a) s.
Proof. intros. split; [apply set_actual|]. split; [apply map_actual|apply entries_actual]. Qed.
(** next throws, and return is called *)
Theorem C120_refuted : exists w fuel nt iterable s,
  set_new w fuel nt iterable s <> s_set w (just_throw w) fuel nt iterable s /\
  map_new w fuel nt iterable s <> s_map w (just_throw w) fuel nt iterable s /\
  add_entries w fuel nt iterable s <> s_add_entries w (just_throw w) fuel iterable (i_entry w nt) s.
Proof.
  exists (toy 3 objs (Z.eqb 2) false false), 9%nat, (Ref 7), (Ref 0), (0, []).
  repeat split; vm_compute; discriminate.
Qed.
Example C120_witness :
  sound_iterators (toy 2 nums never true false) (Ref 0) /\
  set_new (toy 2 nums never false false) 9 (Ref 7) (Ref 0) (0, []) = ((3, [Added [Num 2]; Added [Num 1]]), Ok (Ref 7)) /\
  set_new (toy 2 nums never true false) 9 (Ref 7) (Ref 0) (0, []) = ((1, [Returned]), Throw (User (Num 9))) /\
  map_new (toy 2 nums never false false) 9 (Ref 7) (Ref 0) (0, []) = ((1, [Returned]), Throw TypeError) /\
  map_new (toy 2 objs never false false) 9 (Ref 7) (Ref 0) (0, [])
    = ((3, [Added [Num 10; Num 11]; Added [Num 10; Num 11]]), Ok (Ref 7)) /\
  add_entries (toy 2 objs never true false) 9 (Ref 7) (Ref 0) (0, []) = ((1, [Returned]), Throw (User (Num 9))).
Proof. split; [apply toy_sound; discriminate|]. repeat split. Qed.
Print Assumptions C120_set_partial.
Print Assumptions C120_map_partial.
Print Assumptions C120_entries_partial.
Print Assumptions C120_actual.
Print Assumptions C120_refuted.

(** *** C121: Array.from of an iterable *)
Theorem C121_from_partial : forall w fuel this items f t s,
  sound_iterators w items -> lengths_settable w -> Z.of_nat fuel <= 2 ^ 53 - 1 ->
  array_from w fuel this items f t s = s_from w (just_throw w) (just_throw w) fuel this items f t s.
Proof. intros. apply from_partial; assumption. Qed.
Theorem C121_actual : forall w fuel this items f t s,
  Z.of_nat fuel <= 2 ^ 53 - 1 ->
  array_from w fuel this items f t s = s_from w (closes w) (closes w) fuel this items f t s.
Proof. intros. apply from_actual; assumption. Qed.
(** next throws; or the length of the result cannot be set when all was read *)
Theorem C121_refuted : exists w w' fuel this items s s',
  array_from w fuel this items Undef Undef s <> s_from w (just_throw w) (just_throw w) fuel this items Undef Undef s /\
  sound_iterators w' items /\
  array_from w' fuel this items Undef Undef s' <> s_from w' (just_throw w') (just_throw w') fuel this items Undef Undef s'.
Proof.
  exists (toy 3 nums (Z.eqb 2) false false), (toy 3 nums never false true), 9%nat, Undef, (Ref 0), (0, []), (0, []).
  split; [vm_compute; discriminate|]. split; [apply toy_sound; discriminate|vm_compute; discriminate].
Qed.
Example C121_witness :
  lengths_settable (toy 2 nums never true false) /\
  array_from (toy 2 nums never false false) 9 Undef (Ref 0) Undef Undef (0, [])
    = ((3, [LengthSet 2; Created 1 (Num 2); Created 0 (Num 1)]), Ok (Ref 7)) /\
  array_from (toy 2 nums never true false) 9 Undef (Ref 0) (Ref 6) Undef (0, []) = ((1, [Returned]), Throw (User (Num 9))).
Proof. split; [intros a k s s' e; discriminate|]. split; reflexivity. Qed.
Print Assumptions C121_from_partial.
Print Assumptions C121_actual.
Print Assumptions C121_refuted.

(** *** C122: Array.from of an array-like object and Array.of *)
Theorem C122_from_like : forall w fuel this items f t s s',
  i_method w items MIterator s = (s', Ok Undef) ->
  array_from w fuel this items f t s = s_from w (just_throw w) (just_throw w) fuel this items f t s.
Proof. intros w fuel this items f t s s' E. exact (from_like w fuel this items f t s s' E _ _). Qed.
Theorem C122_of : forall w this args s, array_of w this args s = s_of w this args s.
Proof. intros. apply of_ok. Qed.
(** The errors of an AggregateError: an array of all values. *)
Theorem C122_list : forall w fuel iterable s,
  (forall a k v s s' e, i_create w a k v s <> (s', Throw e)) ->
  array_from_iterable w fuel iterable s = s_list w fuel iterable s.
Proof. intros. apply list_ok; assumption. Qed.
Example C122_witness :
  i_method (toy 2 nums never false false) (Ref 4) MIterator (0, []) = ((0, []), Ok Undef) /\
  array_from (toy 2 nums never false false) 0 Undef (Ref 4) (Ref 6) Undef (0, [])
    = ((0, [LengthSet 2; Created 1 Undef; Added [Num 11; Num 1]; Created 0 Undef; Added [Num 10; Num 0]]), Ok (Ref 7)) /\
  array_of (toy 2 nums never false false) Undef [Num 5; Null] (0, [])
    = ((0, [LengthSet 2; Created 1 Null; Created 0 (Num 5)]), Ok (Ref 7)) /\
  (forall a k v s s' e, i_create (toy 2 nums never false false) a k v s <> (s', Throw e)) /\
  array_from_iterable (toy 2 nums (Z.eqb 3) false false) 9 (Ref 0) (0, [])
    = ((2, [Created 1 (Num 2); Created 0 (Num 1)]), Throw (User (Num 8))).
Proof. repeat split. discriminate. Qed.
Print Assumptions C122_from_like.
Print Assumptions C122_of.
Print Assumptions C122_list.

(** *** C123: array patterns *)
Theorem C123_element : forall w i done s, state_step w i done s = s_element w i done s.
Proof. exact element_ok. Qed.
Theorem C123_rest_partial : forall w fuel i done s s' a,
  values_readable w -> arrays_work w -> i_array w 0 s = (s', Ok a) ->
  state_rest w fuel i done s = s_rest w fuel i a 0 done s'.
Proof. intros w fuel i done s s' a V A E. rewrite (rest_ok w V A), E. reflexivity. Qed.
(** value throws: the record is not marked as done, so that return is called *)
Theorem C123_rest_refuted : exists w fuel i s s' a,
  arrays_work w /\ i_array w 0 s = (s', Ok a) /\
  snd (state_rest w fuel i false s) = (false, Throw (User (Num 8))) /\
  snd (s_rest w fuel i a 0 false s') = (true, Throw (User (Num 8))) /\
  (let (s1, r) := state_rest w fuel i false s in state_leave w i r s1)
    <> (let (s1, r) := s_rest w fuel i a 0 false s' in state_leave w i r s1).
Proof.
  exists (toy 3 (fun _ => Throw (User (Num 8))) never false false), 9%nat, (Ref 1, Ref 2), (0, []), (0, []), (Ref 7).
  split; [split; [intros n s; exists s, (Ref 7); reflexivity|intros a k v s; exists (note (Created k v) s); reflexivity]|].
  repeat split. vm_compute. discriminate.
Qed.
Example C123_witness :
  values_readable (toy 2 nums never false false) /\ arrays_work (toy 2 nums never false false) /\
  state_step (toy 2 nums never false false) (Ref 1, Ref 2) false (0, []) = ((1, []), (false, Ok (Num 1))) /\
  state_step (toy 2 nums (Z.eqb 1) false false) (Ref 1, Ref 2) false (0, []) = ((0, []), (true, Throw (User (Num 8)))) /\
  state_rest (toy 2 nums never false false) 9 (Ref 1, Ref 2) false (1, []) = ((3, [Created 0 (Num 2)]), (true, Ok (Ref 7))).
Proof.
  split; [intros r s s' e; discriminate|].
  split; [split; [intros n s; exists s, (Ref 7); reflexivity|intros a k v s; exists (note (Created k v) s); reflexivity]|].
  repeat split.
Qed.
Print Assumptions C123_element.
Print Assumptions C123_rest_partial.
Print Assumptions C123_rest_refuted.

(** *** C124: array iterators.  Any code may run between the calls of next. *)
Theorem C124_until_over_partial : forall w typed env n o kind s,
  until_over (array_run w typed env n o kind 0 s) = until_over (s_arun w typed env n o kind (At 0) s).
Proof. intros. apply arun_ok. Qed.
(** after the end the iterator stays at its end while the array is not longer *)
Theorem C124_stays_over_partial : forall w typed env n o kind curr s,
  typed o = None -> (forall t, exists t' len, i_len w o t = (t', Ok len) /\ len <= curr) ->
  array_run w typed env n o kind curr s = repeat (Ok None) n.
Proof. intros. apply arun_over; assumption. Qed.
(** the world of one array whose length is the state *)
Definition growing : iworld := {|
  IW := Z;
  i_method := fun _ _ => ret Undef; i_get := fun v k s => (s, Ok (match k with KAt i => Num (i * i) | _ => Undef end));
  i_call := fun _ _ _ => ret Undef; i_construct := fun _ _ => ret Undef; i_array := fun _ => ret Undef;
  i_hash := fun _ => ret Undef; i_create := fun _ _ _ => ret tt; i_set_len := fun _ _ => ret tt;
  i_len := fun _ s => (s, Ok s); i_entry := fun _ _ _ => ret tt; i_object := fun v => v;
  i_truthy := fun _ => false; i_callable := fun _ => false; i_ctor := fun _ => false
|}.
Definition plain_array : val -> option (M (IW growing) (option Z)) := fun _ => None.
(** two elements are pushed after the end: the iterator goes on *)
Theorem C124_resumes_refuted : exists w typed env n o kind s,
  array_run w typed env n o kind 0 s <> s_arun w typed env n o kind (At 0) s.
Proof.
  exists growing, plain_array, (fun k s => if Nat.eqb k 1 then s + 2 else s), 3%nat, (Ref 0), AValue, 1.
  vm_compute. discriminate.
Qed.
Example C124_witness :
  array_run growing plain_array (fun _ s => s) 4 (Ref 0) APair 0 2
    = [Ok (Some (IPair 0 (Num 0))); Ok (Some (IPair 1 (Num 1))); Ok None; Ok None] /\
  array_run growing plain_array (fun k s => if Nat.eqb k 3 then s + 1 else s) 4 (Ref 0) AKey 0 1
    = [Ok (Some (IKey 0)); Ok (Some (IKey 1)); Ok None; Ok None] /\
  array_run growing (fun _ => Some (ret None)) (fun _ s => s) 1 (Ref 0) AKey 0 1 = [Throw TypeError].
Proof. repeat split. Qed.
Print Assumptions C124_until_over_partial.
Print Assumptions C124_stays_over_partial.
Print Assumptions C124_resumes_refuted.
