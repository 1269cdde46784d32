(** Properties C127 to C130: descriptors and the functions of Object. *)
From Coq Require Import List ZArith Bool Lia Ascii String.
From Verif Require Import MethModel MethSpec MethProofs DescModel DescSpec DescProofs.
Import ListNotations.
Local Open Scope Z_scope.

(** *** A world: Ref 1 has the string keys a, b and a symbol; the state lists the keys that
    were defined or set, newest first.  Ref 5 is the descriptor {value: 7, enumerable: true},
    Ref 6 is {get: 1}, which is none. *)
Definition a : pkey := PStr [97].
Definition b : pkey := PStr [98].
Definition yes : desc := mkD (Some (Num 3)) (Some true) None None (Some true) (Some true).
Definition no : desc := mkD (Some (Num 4)) (Some true) None None (Some false) (Some true).
Definition is_a (k : pkey) : bool := match k with PStr [97] => true | _ => false end.
Definition toy (own : pkey -> out (option desc)) (vals : pkey -> val) (tag : val) : dworld := {|
  DW := list pkey;
  d_object := fun v => match v with Undef | Null => throw TypeError | _ => ret v end;
  d_key := fun v => ret (match v with Str s => PStr s | _ => PSym 0 end);
  d_keys := fun _ => ret [a; PSym 1; b];
  d_own := fun _ k s => (s, own k);
  d_left := fun _ old => old;
  d_get := fun _ k => ret (vals k);
  d_set := fun _ k _ s => (k :: s, Ok true);
  d_define := fun _ k _ s => (k :: s, Ok true);
  d_has_field := fun v f => ret (match v, f with
                                 | Ref 5, FValue | Ref 5, FEnumerable | Ref 6, FGet => true
                                 | _, _ => false end);
  d_field := fun v f => ret (match v, f with Ref 5, FValue => Num 7 | Ref 5, _ => Bool true | _, _ => Num 1 end);
  d_is_array := fun _ => ret false;
  d_tag := fun _ => ret tag;
  d_kind := fun _ => KOther;
  d_callable := fun _ => false;
  d_truthy := fun v => match v with Bool x => x | Undef => false | _ => true end
|}.
Definition all_there := toy (fun _ => Ok (Some yes)) (fun _ => Ref 5) Undef.

(** *** C127: Object.defineProperties *)
(** If the properties of the second argument and the descriptors in them can be read
    without effects and without an error, the function does what 20.1.2.3.1 says.  What
    is missing: everything else. *)
Theorem C127_plain_partial : forall w o props,
  (forall s s1 p s2 keys k, d_object w props s = (s1, Ok p) -> d_keys w p s1 = (s2, Ok keys) -> In k keys -> plain w p k) ->
  forall s, object_define_properties w o props s = s_define_properties w o props s.
Proof. intros w o props P. apply define_plain. exact P. Qed.
Print Assumptions C127_plain_partial.
(** what it does if no property disappears and [[GetOwnProperty]] does not throw *)
Theorem C127_actual : forall w o props,
  (forall s s1 p s2 keys k, d_object w props s = (s1, Ok p) -> d_keys w p s1 = (s2, Ok keys) -> In k keys -> found w p k) ->
  forall s, define_properties w o props s =
    (p <- d_object w props ;; keys <- d_keys w p ;; s_define_each w o p keys) s.
Proof. intros w o props P. apply define_actual. exact P. Qed.
Print Assumptions C127_actual.
(** the first property is defined though the second descriptor is wrong *)
Theorem C127_order_refuted : exists w o props s,
  object_define_properties w o props s <> s_define_properties w o props s /\
  snd (object_define_properties w o props s) = Throw TypeError.
Proof.
  exists (toy (fun _ => Ok (Some yes)) (fun k => if is_a k then Ref 5 else Ref 6) Undef), (Ref 0), (Ref 1), [].
  split; [discriminate|reflexivity].
Qed.
Print Assumptions C127_order_refuted.
(** an error of [[GetOwnProperty]] is lost *)
Theorem C127_error_refuted : exists w o props s e,
  snd (s_define_properties w o props s) = Throw e /\ snd (object_define_properties w o props s) = Ok o.
Proof.
  exists (toy (fun k => if is_a k then Throw (User (Num 9)) else Ok (Some no)) (fun _ => Ref 5) Undef), (Ref 0), (Ref 1), [], (User (Num 9)).
  split; reflexivity.
Qed.
Print Assumptions C127_error_refuted.
(** a property that disappears is taken for enumerable because the one before was *)
Theorem C127_absent_refuted : exists w o props s,
  snd (s_define_properties w o props s) = Ok o /\ snd (object_define_properties w o props s) = Throw TypeError.
Proof.
  exists (toy (fun k => if is_a k then Ok (Some yes) else Ok None) (fun k => if is_a k then Ref 5 else Undef) Undef), (Ref 0), (Ref 1), [].
  split; reflexivity.
Qed.
Print Assumptions C127_absent_refuted.
Example C127_witness : (forall s s1 p s2 keys k, d_object all_there (Ref 1) s = (s1, Ok p) ->
    d_keys all_there p s1 = (s2, Ok keys) -> In k keys -> plain all_there p k) /\
  object_define_properties all_there (Ref 0) (Ref 1) [] = ([b; PSym 1; a], Ok (Ref 0)).
Proof.
  split; [|reflexivity]. intros s s1 p s2 keys k _ _ _.
  exists yes, (Ref 5), (mkD (Some (Num 7)) None None None (Some true) None).
  split; [reflexivity|]. split; reflexivity.
Qed.

(** *** C128: keys, values, entries, names and assign *)
Theorem C128_own_properties : forall w f v s, own_properties w f v s = s_own_properties w f v s.
Proof. intros w f v. exact (own_properties_spec w f v). Qed.
Print Assumptions C128_own_properties.
Theorem C128_own_keys : forall w strings v s, own_keys w strings v s = s_own_keys w strings v s.
Proof. intros w strings v. exact (own_keys_spec w strings v). Qed.
Print Assumptions C128_own_keys.
Theorem C128_assign : forall w target srcs s, assign w target srcs s = s_assign w target srcs s.
Proof. intros w t srcs. exact (assign_spec w t srcs). Qed.
Print Assumptions C128_assign.
Example C128_witness :
  let w := toy (fun k => Ok (if is_a k then Some no else Some yes)) (fun _ => Num 3) Undef in
  own_properties w Entries (Ref 1) [] = ([], Ok [IPair b (Num 3)]) /\
  own_properties w Keys Undef [] = ([], Throw TypeError) /\
  own_keys w true (Ref 1) [] = ([], Ok [a; b]) /\ own_keys w false (Ref 1) [] = ([], Ok [PSym 1]) /\
  assign w (Ref 0) [Undef; Ref 1] [] = ([b; PSym 1], Ok (Ref 0)).
Proof. repeat split; reflexivity. Qed.

(** *** C129: descriptors and objects *)
(** whatever is left in the structure from before *)
Theorem C129_to_descriptor : forall w o c s,
  (c' <- to_pd w o c ;; ret (seen c')) s = s_to_pd w o s.
Proof. intros w o c. exact (to_pd_ret w o c). Qed.
Print Assumptions C129_to_descriptor.
Theorem C129_from_descriptor : forall d c, from_pd (load d c) = s_from_pd d /\ seen (load d c) = d.
Proof. intros d c. split; [apply from_pd_spec|apply seen_load]. Qed.
Print Assumptions C129_from_descriptor.
Theorem C129_define_property : forall w o p attrs s, define_property w o p attrs s = s_define_property w o p attrs s.
Proof. intros w o p attrs. exact (define_property_spec w o p attrs). Qed.
Print Assumptions C129_define_property.
Theorem C129_get_descriptor : forall w o p s, get_descriptor w o p s = s_get_descriptor w o p s.
Proof. intros w o p. exact (get_descriptor_spec w o p). Qed.
Print Assumptions C129_get_descriptor.
Theorem C129_get_descriptors : forall w v s, get_descriptors w v s = s_get_descriptors w v s.
Proof. intros w v. exact (get_descriptors_spec w v). Qed.
Print Assumptions C129_get_descriptors.
Example C129_witness :
  s_to_pd all_there (Ref 5) [] = ([], Ok (mkD (Some (Num 7)) None None None (Some true) None)) /\
  s_to_pd all_there (Ref 6) [] = ([], Throw TypeError) /\
  define_property all_there (Ref 0) (Str [97]) (Ref 5) [] = ([a], Ok (Ref 0)) /\
  get_descriptor all_there (Ref 1) (Str [97]) [] =
    ([], Ok (Some [(FValue, Num 3); (FWritable, Bool true); (FEnumerable, Bool true); (FConfigurable, Bool true)])).
Proof. repeat split; reflexivity. Qed.

(** *** C130: Object.prototype.toString *)
(** What is missing: tags with a character U+0000. *)
Theorem C130_to_string_partial : forall w this,
  (forall s s' o t, d_tag w o s = (s', Ok (Str t)) -> ~ In 0 t) ->
  forall s, to_string w this s = s_to_string w this s.
Proof. intros w this H. exact (to_string_spec w this H). Qed.
Print Assumptions C130_to_string_partial.
Theorem C130_to_string_refuted : exists w this s, to_string w this s <> s_to_string w this s.
Proof. exists (toy (fun _ => Ok None) (fun _ => Undef) (Str [97; 0; 98])), (Ref 1), []. discriminate. Qed.
Print Assumptions C130_to_string_refuted.
Example C130_witness :
  let w := toy (fun _ => Ok None) (fun _ => Undef) (Str [97]) in
  (forall s s' o t, d_tag w o s = (s', Ok (Str t)) -> ~ In 0 t) /\
  to_string w (Ref 1) [] = ([], Ok (chars "[object a]")) /\
  to_string all_there Null [] = ([], Ok (chars "[object Null]")) /\
  to_string all_there (Ref 1) [] = ([], Ok (chars "[object Object]")).
Proof.
  repeat split; try reflexivity. intros s s' o t H. cbn in H. inversion H; subst. cbn. lia.
Qed.
