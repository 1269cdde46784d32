(** The properties of the operators (C82-C85). *)
From Coq Require Import ZArith List Bool Lia.
From Verif Require Import NumModel OpModel OpSpec OpProofs.
Import ListNotations.
Open Scope Z_scope.

(** A small world for examples.  Its state is the number of calls made.
    Object 1 is a date at 0 ms, object 2 one at 86400000 ms (Thursday and
    Friday), object 3 has a [valueOf] giving 7 and no @@toPrimitive, object 4
    is a function with prototype 5, object 6 inherits from 5, object 7 is a
    bound function with target 4, object 8 is a plain object, functions 20 and
    21 are the @@toPrimitive of dates and the [valueOf] of object 3. *)
Definition day : Z := 0x4194997000000000.
Definition seven : Z := 0x401c000000000000.
Definition s_get (w : nat) (v : val) (p : pname) : nat * (exc + val) :=
  (w, inr (match v, p with
           | Obj 1, PToPrimitive | Obj 2, PToPrimitive => Obj 20
           | Obj 3, PValueOf => Obj 21
           | Obj 4, PPrototype => Obj 5
           | _, _ => Undef
           end)).
Definition s_call (w : nat) (f this : val) (args : list val) : nat * (exc + val) :=
  (S w,
   match f, this, args with
   | Obj 20, Obj n, [Str h] =>
     if string_equal h (hint_text HNumber) then
       inr (Num (if Nat.eqb n 1 then 0 else day))
     else inr (Str (if Nat.eqb n 1 then [84; 104; 117] else [70; 114; 105]))
   | Obj 21, _, _ => inr (Num seven)
   | _, _, _ => inl EType
   end).
Definition s_callable (v : val) : bool :=
  match v with Obj 4 | Obj 7 | Obj 20 | Obj 21 => true | _ => false end.
Definition s_proto (w : nat) (n : nat) : nat * (exc + option nat) :=
  (w, inr (match n with 6%nat => Some 5%nat | _ => None end)).
Definition s_bound (n : nat) : option val := match n with 7%nat => Some (Obj 4) | _ => None end.
Definition s_num (s : text) : Z := match s with [55] => seven | [] => 0 | _ => nan end.
Definition s_big (s : text) : option Z := match s with [55] => Some 7 | [] => Some 0 | _ => None end.
Definition s_str (z : Z) : text := if z =? seven then [55] else [63].
Definition s_add (a b : Z) : Z := if a =? 0 then b else a.
Notation s_eq := (bc_eq nat s_get s_call s_callable s_num s_big).
Notation s_lt := (bc_lt nat s_get s_call s_callable s_num s_big).

(** ** C82 — equality *)
(** [==]: the answer, the effects and the exceptions of the standard, for all
    values and whatever scripts do; in particular it never fails to end. *)
Theorem C82_loose_equality :
  forall W get call callable str_num str_big w v1 v2,
  let '(w', r) := bc_eq W get call callable str_num str_big v1 v2 w in
  loose_outcome W get call callable str_num str_big w v1 v2 w' r.
Proof. exact bc_eq_ok. Qed.
Print Assumptions C82_loose_equality.
(** [===] runs no script and answers the standard's relation. *)
Theorem C82_strict_equality :
  forall W (w : W) v1 v2,
  exists b, bc_strict_eq W v1 v2 w = (w, Ok b) /\ (b = true <-> strict v1 v2).
Proof.
  intros. destruct (strictly_equal_ok v1 v2) as (b & E & H). exists b. split; [|exact H].
  unfold bc_strict_eq, lift. rewrite E. reflexivity.
Qed.
Print Assumptions C82_strict_equality.
(** [!=] and [!==] are the negations. *)
Theorem C82_inequality :
  forall W get call callable str_num str_big w v1 v2,
  bc_ne W get call callable str_num str_big v1 v2 w =
    (let '(w', r) := bc_eq W get call callable str_num str_big v1 v2 w in
     (w', match r with Ok b => Ok (negb b) | Throw e => Throw e | Crash => Crash | Fuel => Fuel end)) /\
  bc_strict_ne W v1 v2 w =
    (let '(w', r) := bc_strict_eq W v1 v2 w in
     (w', match r with Ok b => Ok (negb b) | Throw e => Throw e | Crash => Crash | Fuel => Fuel end)).
Proof.
  intros. split; [apply bc_ne_ok|].
  unfold bc_strict_ne, bc_strict_eq, bind, lift, ret. destruct (strictly_equal v1 v2); reflexivity.
Qed.
Print Assumptions C82_inequality.
(** "7" == 7n, true == the object with valueOf 7 is false, "7" == that object
    (one call each), NaN != NaN, null == undefined, null == 0 is false. *)
Example C82_witness :
  s_eq (Str [55]) (Big 7) 0%nat = (0%nat, Ok true) /\
  s_eq (Bool true) (Obj 3) 0%nat = (1%nat, Ok false) /\
  s_eq (Str [55]) (Obj 3) 0%nat = (1%nat, Ok true) /\
  s_eq (Num nan) (Num nan) 0%nat = (0%nat, Ok false) /\
  s_eq Null Undef 0%nat = (0%nat, Ok true) /\
  s_eq Null (Num 0) 0%nat = (0%nat, Ok false) /\
  s_eq (Obj 8) (Str []) 0%nat = (0%nat, Throw EType).
Proof. vm_compute. repeat split. Qed.

(** ** C83 — relational operators *)
(** What the code computes: the standard's comparison, except that objects are
    converted with the hint "default" in place of "number". *)
Theorem C83_relational_actual :
  forall W get call callable str_num str_big op w v1 v2,
  let '(w', r) := bc_rel W get call callable str_num str_big op v1 v2 w in
  rel_outcome W get call callable str_num str_big HDefault op w v1 v2 w' r.
Proof.
  intros W get call callable str_num str_big.
  exact (bc_rel_ok W get call callable str_num str_big (fun _ => []) (fun _ => []) (fun a _ => a)).
Qed.
Print Assumptions C83_relational_actual.
(** So the comparison is the standard's when no object among the operands has
    a @@toPrimitive method. *)
Theorem C83_relational :
  forall W get call callable str_num str_big op w v1 v2,
  plain W get w v1 ->
  (forall w1 p, ToPrimitive W get call callable w v1 HNumber = (w1, inr p) -> plain W get w1 v2) ->
  let '(w', r) := bc_rel W get call callable str_num str_big op v1 v2 w in
  rel_outcome W get call callable str_num str_big HNumber op w v1 v2 w' r.
Proof.
  intros W get call callable str_num str_big op w v1 v2 P1 P2.
  pose proof (C83_relational_actual W get call callable str_num str_big op w v1 v2) as H.
  destruct (bc_rel W get call callable str_num str_big op v1 v2 w) as [w' r].
  eapply rel_outcome_hint; [apply plain_hint; exact P1| |exact H].
  intros w1 p E. apply plain_hint. eapply P2. exact E.
Qed.
Print Assumptions C83_relational.
Example C83_witness :
  plain nat s_get 0%nat (Obj 3) /\
  s_lt (Obj 3) (Big 8) 0%nat = (1%nat, Ok true) /\
  s_lt (Str [55]) (Str [55; 49]) 0%nat = (0%nat, Ok true) /\
  s_lt (Num nan) (Num 0) 0%nat = (0%nat, Ok false) /\
  s_lt Undef Null 0%nat = (0%nat, Ok false) /\
  s_lt (Sym 0) Null 0%nat = (0%nat, Throw EType).
Proof. vm_compute. repeat split. Qed.
(** Two dates, one day apart: the standard compares their time values, the code
    compares the strings "Thu..." and "Fri...". *)
Theorem C83_dates_refuted :
  exists W get call callable str_num str_big (w : W) v1 v2,
  (exists w', rel_outcome W get call callable str_num str_big HNumber RLt w v1 v2 w' (Ok true)) /\
  (forall w', ~ rel_outcome W get call callable str_num str_big HNumber RLt w v1 v2 w' (Ok false)) /\
  snd (bc_lt W get call callable str_num str_big v1 v2 w) = Ok false.
Proof.
  exists nat, s_get, s_call, s_callable, s_num, s_big, 0%nat, (Obj 1), (Obj 2).
  assert (L : rel_prim s_num s_big RLt (Num 0) (Num day)).
  { exists (Fin 0), (Fin (dval day)). split; [vm_compute; reflexivity|].
    split; [vm_compute; reflexivity|]. cbn [rel_holds ext_lt]. vm_compute. reflexivity. }
  split; [|split].
  - exists 2%nat. eapply ro_answer; [reflexivity|reflexivity|reflexivity|]. apply answers_true. exact L.
  - intros w' H. inversion H as [w1 e E|w1 p w2 e E1 E2|w1 p w2 q E1 E2 S|w1 p w2 q r E1 E2 S A]; subst.
    cbn in E1. injection E1 as <- <-. cbn in E2. injection E2 as <- <-.
    destruct A as (b & [= <-] & A). apply A in L. discriminate.
  - vm_compute. reflexivity.
Qed.
Print Assumptions C83_dates_refuted.

(** ** C84 — arithmetic *)
(** [+] *)
Theorem C84_addition :
  forall W get call callable str_num num_str big_str num_add (w : W) v1 v2,
  do_bc_add W get call callable str_num num_str big_str num_add v1 v2 w =
  Add W get call callable str_num num_str big_str num_add w v1 v2.
Proof. exact do_bc_add_ok. Qed.
Print Assumptions C84_addition.
(** the other eleven binary operators *)
Theorem C84_arithmetic :
  forall W get call callable str_num num_op big_op o (w : W) v1 v2,
  do_bc_numeric W get call callable str_num num_op big_op o v1 v2 w =
  Arithmetic W get call callable str_num num_op big_op o w v1 v2.
Proof. exact do_bc_numeric_ok. Qed.
Print Assumptions C84_arithmetic.
Notation s_plus := (do_bc_add nat s_get s_call s_callable s_num s_str s_str s_add).
Notation s_minus := (do_bc_numeric nat s_get s_call s_callable s_num (fun _ a _ => a) (fun _ a b => Ok (a - b)) OpSub).
Example C84_witness :
  s_plus (Obj 3) (Str [33]) 0%nat = (1%nat, Ok (Str [55; 33])) /\
  s_plus (Obj 1) (Big 1) 0%nat = (1%nat, Ok (Str [84; 104; 117; 63])) /\
  s_plus (Big 2) (Big 3) 0%nat = (0%nat, Ok (Big 5)) /\
  s_plus (Big 2) (Obj 3) 0%nat = (1%nat, Throw EType) /\
  s_minus (Obj 3) (Obj 1) 0%nat = (2%nat, Ok (Num seven)) /\
  s_minus (Sym 1) (Obj 3) 0%nat = (0%nat, Throw EType).
Proof. vm_compute. repeat split. Qed.

(** ** C85 — [instanceof] and [typeof] *)
(** With enough steps [instanceof] gives exactly the outcomes of the standard. *)
Theorem C85_instanceof :
  forall W get call callable proto_of bound,
  (forall v, callable v = true -> is_obj v = true) ->
  forall w v t w' b,
  instanceof W get call callable proto_of bound w v t w' b <->
  (b <> Fuel /\
   exists n, forall fuel, (n <= fuel)%nat ->
     bc_instanceof W get call callable proto_of bound fuel v t w = (w', b)).
Proof.
  intros W get call callable proto_of bound HC w v t w' b.
  assert (E : forall fuel w' r, instance_of W get call callable proto_of bound fuel v t w = (w', r) ->
     bc_instanceof W get call callable proto_of bound fuel v t w = (w', answer r)).
  { intros fuel w0 r H. unfold bc_instanceof, bind, ret. rewrite H. destruct r; reflexivity. }
  split.
  - intros H. destruct (instance_complete W get call callable proto_of bound HC w v t w' b H) as (n & r & C).
    assert (F : b <> Fuel).
    { destruct (C n (le_n n)) as [C1 C2]. subst b. intros F.
      assert (r = Fuel) by (destruct r; try discriminate F; reflexivity). subst r.
      clear - H F.
      assert (G : forall w v t w' b, instanceof W get call callable proto_of bound w v t w' b -> b <> Fuel).
      { clear. intros w v t w' b H.
        apply (instanceof_mut W get call callable proto_of bound
          (fun w c o w' b _ => b <> Fuel) (fun w v t w' b _ => b <> Fuel)) in H; auto; try discriminate.
        - clear. intros w n o w1 p w' r _ _ _ C. induction C; auto; discriminate.
        - clear. intros w v t w1 f w' r _ _ _ _ _ b (x & -> & _). discriminate. }
      exact (G _ _ _ _ _ H F). }
    split; [exact F|]. exists n. intros fuel L. destruct (C fuel L) as [C1 C2].
    rewrite (E _ _ _ C1), C2. reflexivity.
  - intros (F & n & H). specialize (H n (le_n n)).
    destruct (instance_of W get call callable proto_of bound n v t w) as [w0 r] eqn:I.
    rewrite (E _ _ _ I) in H. injection H as <- <-.
    apply (proj2 (instance_sound W get call callable proto_of bound HC n)) with (1 := I).
    intros ->. apply F. reflexivity.
Qed.
Print Assumptions C85_instanceof.
Notation s_inst := (bc_instanceof nat s_get s_call s_callable s_proto s_bound).
Example C85_witness :
  s_inst 9 (Obj 6) (Obj 4) 0%nat = (0%nat, Ok true) /\
  s_inst 9 (Obj 6) (Obj 7) 0%nat = (0%nat, Ok true) /\
  s_inst 9 (Obj 8) (Obj 4) 0%nat = (0%nat, Ok false) /\
  s_inst 9 (Num 0) (Obj 4) 0%nat = (0%nat, Ok false) /\
  s_inst 9 (Obj 6) (Obj 8) 0%nat = (0%nat, Throw EType) /\
  s_inst 9 (Obj 6) (Num 0) 0%nat = (0%nat, Throw EType).
Proof. vm_compute. repeat split. Qed.
(** Function.prototype[@@hasInstance] called on something that is not a
    function: the standard answers false, the code fails an assertion (this is
    not an object) or throws (this is an object). *)
Theorem C85_not_callable_refuted :
  exists W get call callable proto_of bound (w : W) o,
  (exists c, callable c = false /\
     has_instance W get call callable proto_of bound w c o w (Ok false) /\
     forall fuel, (fuel > 0)%nat ->
       snd (ordinary_has_instance W get call callable proto_of bound fuel c o w) = Crash) /\
  (exists c, callable c = false /\
     has_instance W get call callable proto_of bound w c o w (Ok false) /\
     forall fuel, (fuel > 0)%nat ->
       snd (ordinary_has_instance W get call callable proto_of bound fuel c o w) = Throw EType).
Proof.
  exists nat, s_get, s_call, s_callable, s_proto, s_bound, 0%nat, (Obj 6). split.
  - exists (Num 0). split; [reflexivity|]. split; [apply hi_not_callable; reflexivity|].
    intros [|fuel] H; [lia|]. reflexivity.
  - exists (Obj 8). split; [reflexivity|]. split; [apply hi_not_callable; reflexivity|].
    intros [|fuel] H; [lia|]. reflexivity.
Qed.
Print Assumptions C85_not_callable_refuted.
(** The variable holding the left operand is not preserved: after the walk it
    holds an object of the prototype chain. *)
Theorem C85_operand_refuted :
  exists W get call callable proto_of bound (w : W) c o fuel o',
  snd (ordinary_has_instance W get call callable proto_of bound fuel c o w) = Ok (false, o') /\ o' <> o.
Proof.
  exists nat, s_get, s_call, s_callable, (fun w n => (w, inr (match n with 6%nat => Some 8%nat | _ => None end))),
    s_bound, 0%nat, (Obj 4), (Obj 6), 9%nat, (Obj 8).
  split; [vm_compute; reflexivity|discriminate].
Qed.
Print Assumptions C85_operand_refuted.
Theorem C85_typeof :
  forall callable v, typeof_name callable v (type_of callable v) /\
  forall n, typeof_name callable v n -> n = type_of callable v.
Proof.
  intros callable v. split.
  - destruct v; cbn; try constructor. destruct (callable (Obj n)) eqn:C; constructor; exact C.
  - intros n H. destruct H as [| | | | | | |k H|k H]; cbn; try reflexivity; rewrite H; reflexivity.
Qed.
Print Assumptions C85_typeof.
