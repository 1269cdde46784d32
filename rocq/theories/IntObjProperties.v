(** Properties C131 and C132: the internal methods of typed arrays. *)
From Coq Require Import List ZArith Bool Lia.
From Verif Require Import MethModel DescModel IntObjModel IntObjSpec IntObjProofs.
Import ListNotations.
Local Open Scope Z_scope.

(** *** A world: four elements; converting Str [] detaches the buffer, Str [1] throws.
    The state: detached, the elements, and the receivers of ordinary sets. *)
Definition st := (bool * (Z -> Z) * list val)%type.
Definition toy : tworld := {|
  TW := st;
  t_detached := fun s => fst (fst s);
  t_read := fun i s => snd (fst s) i;
  t_write := fun i e s => (fst (fst s), (fun j => if j =? i then e else snd (fst s) j), snd s);
  t_convert := fun v s => match v with
                          | Num n => (s, Ok n)
                          | Str [] => ((true, snd (fst s), snd s), Ok 0)
                          | _ => (s, Throw TypeError) end;
  t_own := fun _ => ret None;
  t_define := fun _ _ => ret true;
  t_has := fun _ => ret false;
  t_get := fun _ _ => ret Undef;
  t_set := fun _ _ r s => ((fst (fst s), snd (fst s), r :: snd s), Ok true);
  t_delete := fun _ => ret true;
  t_keys := ret [PStr [97]]
|}.
Definition s0 : st := (false, (fun i => 10 + i), []).
Definition detached : st := (true, (fun i => 10 + i), []).

(** *** C131: elements are read, defined, found and deleted as 10.4.5 says *)
Theorem C131_get_own : forall w len n s s' r,
  get_own w len (Canon n) s = (s', r) <-> Get_own w len n s s' r.
Proof. exact get_own_iff. Qed.
Print Assumptions C131_get_own.
Theorem C131_get : forall w len n receiver s s' r,
  get_property w len (Canon n) receiver s = (s', r) <-> Get_element w len n s s' r.
Proof. intros w len n receiver. exact (element_get_iff w len n). Qed.
Print Assumptions C131_get.
(** also if the conversion of the value detaches the buffer *)
Theorem C131_define_own : forall w len n d s s' r,
  define_own w len (Canon n) d s = (s', r) <-> Define_own w len n d s s' r.
Proof. exact define_own_iff. Qed.
Print Assumptions C131_define_own.
Theorem C131_has_delete : forall w len n s, exists b,
  has_property w len (Canon n) s = (s, Ok b) /\ delete_property w len (Canon n) s = (s, Ok (negb b)) /\
  (b = true <-> exists i, in_range w len s n i).
Proof.
  intros w len n s. unfold has_property, delete_property, bind.
  destruct (valid_cases w len n s) as [[i [R E]]|[N E]]; rewrite E.
  - exists true. split; [reflexivity|]. split; [reflexivity|]. split; [intros _; exists i; exact R|reflexivity].
  - exists false. split; [reflexivity|]. split; [reflexivity|]. split; [discriminate|]. intros [i R]. destruct (N i R).
Qed.
Print Assumptions C131_has_delete.
(** all other keys are ordinary *)
Theorem C131_other_keys : forall w len k d v r,
  get_own w len (Plain k) = t_own w k /\ define_own w len (Plain k) d = t_define w k d /\
  has_property w len (Plain k) = t_has w k /\ get_property w len (Plain k) r = t_get w k r /\
  set_property w len (Plain k) v r = t_set w (Plain k) v r /\ delete_property w len (Plain k) = t_delete w k.
Proof. intros. repeat split; reflexivity. Qed.
Print Assumptions C131_other_keys.
Example C131_witness :
  in_range toy 4 s0 (Int 3) 3 /\ (forall i, ~ in_range toy 4 s0 (Int 4) i) /\
  snd (get_own toy 4 (Canon (Int 3)) s0) = Ok (Some (mkD (Some (Num 13)) (Some true) None None (Some true) (Some true))) /\
  snd (get_own toy 4 (Canon MinusZero) s0) = Ok None /\ snd (get_own toy 4 (Canon (Int 3)) detached) = Ok None /\
  snd (define_own toy 4 (Canon (Int 1)) (mkD (Some (Num 7)) (Some false) None None None None) s0) = Ok false /\
  snd (fst (fst (define_own toy 4 (Canon (Int 1)) (mkD (Some (Num 7)) None None None None None) s0))) 1 = 7 /\
  snd (fst (fst (define_own toy 4 (Canon (Int 1)) (mkD (Some (Str [])) None None None None None) s0))) 1 = 11.
Proof.
  split; [repeat split; lia|]. split; [intros i [_ [H R]]; inversion H; subst; lia|]. repeat split; reflexivity.
Qed.

(** *** C132: writing an element and listing the keys *)
(** What is missing: other receivers, and the keys when the buffer is detached. *)
Theorem C132_set_partial : forall w self len n v s s' r,
  set_property w len (Canon n) v self s = (s', r) <-> Set_property w self len n v self s s' r.
Proof. exact set_self_iff. Qed.
Print Assumptions C132_set_partial.
Theorem C132_keys_partial : forall w len s others, t_keys w s = (s, Ok others) -> t_detached w s = false ->
  exists l, own_property_keys w len s = (s, Ok l) /\ s_keys w len s others l.
Proof. exact keys_spec. Qed.
Print Assumptions C132_keys_partial.
(** Reflect.set(array, 1, 5, receiver), also an object that inherits from the array *)
Theorem C132_set_refuted : exists w self len n v receiver s s' r,
  set_property w len (Canon n) v receiver s = (s', r) /\ ~ Set_property w self len n v receiver s s' r.
Proof.
  exists toy, (Ref 0), 4, (Int 1), (Num 5), (Ref 1), s0.
  eexists. eexists. split; [reflexivity|]. intros H. inversion H; subst.
  - match goal with N : forall i, ~ _ |- _ => apply (N 1) end. repeat split; lia.
  - match goal with E : t_set _ _ _ _ _ = _ |- _ => cbn in E; inversion E end.
Qed.
Print Assumptions C132_set_refuted.
Theorem C132_keys_refuted : exists w len s others l, t_keys w s = (s, Ok others) /\
  own_property_keys w len s = (s, Ok l) /\ ~ s_keys w len s others l.
Proof.
  exists toy, 4, detached, [PStr [97]]. eexists. split; [reflexivity|]. split; [reflexivity|].
  intros [H _]. specialize (H eq_refl). discriminate.
Qed.
Print Assumptions C132_keys_refuted.
Example C132_witness :
  snd (fst (fst (set_property toy 4 (Canon (Int 1)) (Num 5) (Ref 0) s0))) 1 = 5 /\
  snd (set_property toy 4 (Canon (Int 9)) (Num 5) (Ref 0) s0) = Ok true /\
  snd (own_property_keys toy 2 s0) = Ok [Canon (Int 0); Canon (Int 1); Plain (PStr [97])].
Proof. repeat split; reflexivity. Qed.
