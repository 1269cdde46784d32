(** ECMA-262 (2023) 10.4.5: integer-indexed exotic objects. *)
From Coq Require Import List ZArith Bool.
From Verif Require Import MethModel DescModel IntObjModel.
Import ListNotations.
Local Open Scope Z_scope.

Section S.
Variable w : tworld.
Variable self : val.
Variable len : Z.
Notation M := (M (TW w)).

(** 10.4.5.14 IsValidIntegerIndex *)
Definition in_range (s : TW w) (n : number) (i : Z) : Prop := t_detached w s = false /\ n = Int i /\ 0 <= i < len.
(** the internal methods as relations between the state before, the state after and the result *)
(** 10.4.5.15 *)
Inductive Get_element : number -> TW w -> TW w -> out val -> Prop :=
| ge_valid : forall n i s, in_range s n i -> Get_element n s s (Ok (Num (t_read w i s)))
| ge_invalid : forall n s, (forall i, ~ in_range s n i) -> Get_element n s s (Ok Undef).
(** 10.4.5.16: the index is tested after the conversion *)
Inductive Set_element : number -> val -> TW w -> TW w -> out unit -> Prop :=
| se_valid : forall n v s s' e i, t_convert w v s = (s', Ok e) -> in_range s' n i -> Set_element n v s (t_write w i e s') (Ok tt)
| se_invalid : forall n v s s' e, t_convert w v s = (s', Ok e) -> (forall i, ~ in_range s' n i) -> Set_element n v s s' (Ok tt)
| se_throw : forall n v s s' e, t_convert w v s = (s', Throw e) -> Set_element n v s s' (Throw e)
| se_bad : forall n v s s', t_convert w v s = (s', Bad) -> Set_element n v s s' Bad
| se_deep : forall n v s s', t_convert w v s = (s', Deep) -> Set_element n v s s' Deep.
(** 10.4.5.1 *)
Inductive Get_own : number -> TW w -> TW w -> out (option desc) -> Prop :=
| go_valid : forall n i s, in_range s n i ->
    Get_own n s s (Ok (Some (mkD (Some (Num (t_read w i s))) (Some true) None None (Some true) (Some true))))
| go_invalid : forall n s, (forall i, ~ in_range s n i) -> Get_own n s s (Ok None).
(** 10.4.5.3: a descriptor an element can have *)
Definition acceptable (d : desc) : Prop :=
  d_configurable d <> Some false /\ d_enumerable d <> Some false /\ d_getter d = None /\ d_setter d = None /\
  d_writable d <> Some false.
Inductive Define_own : number -> desc -> TW w -> TW w -> out bool -> Prop :=
| do_invalid : forall n d s, (forall i, ~ in_range s n i) -> Define_own n d s s (Ok false)
| do_refused : forall n d s i, in_range s n i -> ~ acceptable d -> Define_own n d s s (Ok false)
| do_empty : forall n d s i, in_range s n i -> acceptable d -> d_value d = None -> Define_own n d s s (Ok true)
| do_set : forall n d s i v s', in_range s n i -> acceptable d -> d_value d = Some v ->
    Set_element n v s s' (Ok tt) -> Define_own n d s s' (Ok true)
| do_throw : forall n d s i v s' e, in_range s n i -> acceptable d -> d_value d = Some v ->
    Set_element n v s s' (Throw e) -> Define_own n d s s' (Throw e)
| do_bad : forall n d s i v s', in_range s n i -> acceptable d -> d_value d = Some v ->
    Set_element n v s s' Bad -> Define_own n d s s' Bad
| do_deep : forall n d s i v s', in_range s n i -> acceptable d -> d_value d = Some v ->
    Set_element n v s s' Deep -> Define_own n d s s' Deep.
(** 10.4.5.5 *)
Inductive Set_property : number -> val -> val -> TW w -> TW w -> out bool -> Prop :=
| sp_self : forall n v s s', Set_element n v s s' (Ok tt) -> Set_property n v self s s' (Ok true)
| sp_throw : forall n v s s' e, Set_element n v s s' (Throw e) -> Set_property n v self s s' (Throw e)
| sp_bad : forall n v s s', Set_element n v s s' Bad -> Set_property n v self s s' Bad
| sp_deep : forall n v s s', Set_element n v s s' Deep -> Set_property n v self s s' Deep
| sp_invalid : forall n v r s, r <> self -> (forall i, ~ in_range s n i) -> Set_property n v r s s (Ok true)
| sp_other : forall n v r s i s' b, r <> self -> in_range s n i -> t_set w (Canon n) v r s = (s', b) -> Set_property n v r s s' b.
(** 10.4.5.7: the indices only if the buffer is not detached (the ordinary keys have no effects) *)
Definition s_keys (s : TW w) (others : list pkey) (l : list tkey) : Prop :=
  (t_detached w s = true -> l = map Plain others) /\
  (t_detached w s = false -> exists idx, l = idx ++ map Plain others /\ length idx = Z.to_nat len /\
     forall i, 0 <= i < len -> nth_error idx (Z.to_nat i) = Some (Canon (Int i))).
End S.
