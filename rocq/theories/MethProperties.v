(** C90, C91: the methods of Array.prototype. *)
From Coq Require Import List ZArith Bool Lia.
From Verif Require Import MethModel MethSpec MethProofs MethPlain.
Import ListNotations.
Local Open Scope Z_scope.

(** the methods that read the array, or make a new one *)
Definition reading (m : meth) : bool :=
  match m with
  | At | Concat | Every | Filter | Find | FindIndex | FindLast | FindLastIndex | Flat | FlatMap | ForEach
  | JoinM | MapM | Reduce | ReduceRight | Slice | Some_ | ToLocaleStringM | ToReversed | ToSpliced | ToStringM => true
  | _ => false
  end.
(** the methods that search from an index *)
Definition searching (m : meth) : bool := match m with Includes | IndexOf | LastIndexOf => true | _ => false end.
(** the methods that change the array, without splice and unshift *)
Definition changing (m : meth) : bool := match m with CopyWithin | Fill | Pop | Push | Reverse | Shift => true | _ => false end.
(** a depth above 2^53 does not count down *)
Definition depths_fit (w : world) : Prop := forall v s s' d, to_int w v s = (s', Ok (Fin d)) -> d <= 2 ^ 53.

(** In every world: the same operations in the same order, with the same result. *)
Theorem C90_reading_methods : forall w fuel fallback m this args s,
  reading m = true -> lengths_fit w -> revoked_throws w -> (m = Flat -> depths_fit w) ->
  code w fuel fallback m this args s = spec w fuel fallback m this args s.
Proof.
  intros w fuel fb m this args s R LF RT DF. destruct m; try discriminate; cbn [code spec].
  - apply at_ok; exact LF.
  - apply concat_ok; assumption.
  - apply every_ok; exact LF.
  - apply filter_ok; assumption.
  - apply find_up_ok; exact LF.
  - apply find_up_ok; exact LF.
  - apply find_down_ok; exact LF.
  - apply find_down_ok; exact LF.
  - apply flat_ok; try assumption. intros v st st' d E. destruct d as [z| |]; cbn; auto. eapply DF; [reflexivity|exact E].
  - apply flatMap_ok; assumption.
  - apply forEach_ok; exact LF.
  - apply join_ok; exact LF.
  - apply map_ok; assumption.
  - apply reduce_ok; exact LF.
  - apply reduceRight_ok; exact LF.
  - apply slice_ok; assumption.
  - apply some_ok; exact LF.
  - apply toLocaleString_ok; exact LF.
  - apply toReversed_ok; exact LF.
  - apply toSpliced_ok; exact LF.
  - apply toString_ok.
Qed.
Theorem C90_search_methods : forall w fuel fallback m this args s,
  searching m = true -> lengths_fit w -> indices_fit w ->
  code w fuel fallback m this args s = spec w fuel fallback m this args s.
Proof.
  intros w fuel fb m this args s R LF IF. destruct m; try discriminate; cbn [code spec].
  - apply includes_ok; assumption.
  - apply indexOf_ok; assumption.
  - apply lastIndexOf_ok; assumption.
Qed.
(** The definition of an element of a new array does not fail. *)
Theorem C90_with : forall w fuel fallback this args s,
  lengths_fit w -> indices_fit w ->
  (forall a k v s s' e, create w a k v s <> (s', Throw e)) ->
  (forall v s s' x, to_int w v s = (s', Ok x) -> x <> PInf /\ x <> NInf) ->
  code w fuel fallback With this args s = spec w fuel fallback With this args s.
Proof. intros. apply with_ok; assumption. Qed.
Theorem C91_changing_methods : forall w fuel fallback m this args s,
  changing m = true -> lengths_fit w ->
  code w fuel fallback m this args s = spec w fuel fallback m this args s.
Proof.
  intros w fuel fb m this args s R LF. destruct m; try discriminate; cbn [code spec].
  - apply copyWithin_ok; exact LF.
  - apply fill_ok; exact LF.
  - apply pop_ok; exact LF.
  - apply push_ok; exact LF.
  - apply reverse_ok; exact LF.
  - apply shift_ok; exact LF.
Qed.
(** On a plain array splice and unshift leave the right contents. *)
Theorem C91_splice_contents : forall conv args p,
  let start := relative (conv (nth 0 args Undef)) (slen p) in
  let dc := deleted conv args (slen p) start in
  let items := skipn 2 args in
  let ic := Z.of_nat (length items) in
  dense_range p -> 0 <= slen p <= limit -> slen p + ic - dc <= limit ->
  exists q, p_splice (plain_world conv) (Ref 0) args p = (q, Ok (Ref 1)) /\
    slen q = slen p - dc + ic /\ dlen q = dc /\
    (forall i, 0 <= i -> src q i = if i <? start then src p i
       else if i <? start + ic then nth_error items (Z.to_nat (i - start)) else src p (i - ic + dc)) /\
    (forall i, dst q i = if (0 <=? i) && (i <? dc) then src p (start + i) else None).
Proof. exact splice_plain. Qed.
Theorem C91_unshift_contents : forall conv args p,
  dense_range p -> 0 <= slen p -> slen p + Z.of_nat (length args) <= limit ->
  exists q, p_unshift (plain_world conv) (Ref 0) args p = (q, Ok (Num (slen p + Z.of_nat (length args)))) /\
    slen q = slen p + Z.of_nat (length args) /\
    forall i, 0 <= i -> src q i = if i <? Z.of_nat (length args) then nth_error args (Z.to_nat i) else src p (i - Z.of_nat (length args)).
Proof. exact unshift_plain. Qed.

(** *** Small worlds: one object with the elements listed in the state, whose length
    does not change.  [fixed] elements cannot be deleted. *)
Definition small (len : Z) (conv : val -> xint) (fixed : Z -> bool) (arr : out bool) : world := {|
  W := list Z;
  to_object := fun v => ret v;
  len_of := fun _ => ret len;
  to_int := fun v => ret (conv v);
  to_str := fun _ => ret [];
  is_array := fun _ s => (s, arr);
  has := fun _ k s => (s, Ok (match k with Idx i => existsb (Z.eqb i) s | Name _ => true end));
  get := fun _ k => ret (match k with Idx i => Num i | Name _ => Undef end);
  set := fun _ k _ s => (match k with Idx i => if existsb (Z.eqb i) s then s else i :: s | Name _ => s end, Ok tt);
  del := fun _ k s => match k with Idx i => if fixed i then (s, Throw TypeError) else (filter (fun j => negb (j =? i)) s, Ok tt) | Name _ => (s, Ok tt) end;
  create := fun _ _ _ => ret tt;
  call := fun _ _ _ => ret (Bool true);
  construct := fun _ _ => ret (Ref 1);
  new_array := fun _ => ret (Ref 1);
  invoke := fun _ _ => ret Undef;
  foreign_array := fun _ => ret false;
  callable := fun v => match v with Ref _ => true | _ => false end;
  is_ctor := fun _ => false;
  truthy := fun v => match v with Bool b => b | _ => false end;
  same_zero := fun _ _ => true;
  strict_eq := fun _ _ => true
|}.
Definition number (v : val) : xint := match v with Num n => Fin n | _ => Fin 0 end.

Lemma small_lengths len conv fixed arr : 0 <= len <= limit -> lengths_fit (small len conv fixed arr).
Proof. intros H o s s' n E. cbn in E. injection E as _ <-. exact H. Qed.

(** [[1].indexOf(1, 2**63)]: the start index is not a value of int64_t. *)
Theorem C90_search_refuted : exists w fuel fallback this args s,
  lengths_fit w /\ snd (code w fuel fallback IndexOf this args s) = Bad /\
  snd (code w fuel fallback Includes this args s) = Bad /\
  snd (spec w fuel fallback IndexOf this args s) = Ok (Num (-1)) /\
  snd (spec w fuel fallback Includes this args s) = Ok (Bool false).
Proof.
  exists (small 1 number (fun _ => false) (Ok true)), 1%nat, Undef, (Ref 0), [Num 1; Num (2 ^ 63)], [0].
  split; [apply small_lengths; unfold limit; lia|]. repeat split; vm_compute; reflexivity.
Qed.
(** The same for lastIndexOf and with below -2^63, and for with at Infinity. *)
Theorem C90_negative_refuted : exists w fuel fallback this args s,
  lengths_fit w /\ snd (code w fuel fallback LastIndexOf this args s) = Bad /\
  snd (code w fuel fallback With this args s) = Bad /\
  snd (spec w fuel fallback LastIndexOf this args s) = Ok (Num (-1)) /\
  snd (spec w fuel fallback With this args s) = Throw RangeError.
Proof.
  exists (small 1 (fun _ => Fin (- 2 ^ 64)) (fun _ => false) (Ok true)), 1%nat, Undef, (Ref 0), [Num 1; Num 1], [0].
  split; [apply small_lengths; unfold limit; lia|]. repeat split; vm_compute; reflexivity.
Qed.
(** A proxy around a revoked proxy that has its own [get]: the error of IsArray is lost. *)
Theorem C90_species_refuted : exists w fuel fallback this args s,
  lengths_fit w /\ snd (code w fuel fallback Slice this args s) = Ok (Ref 1) /\
  snd (spec w fuel fallback Slice this args s) = Throw TypeError.
Proof.
  exists (small 1 number (fun _ => false) (Throw TypeError)), 1%nat, Undef, (Ref 0), [], [0].
  split; [apply small_lengths; unfold limit; lia|]. repeat split; vm_compute; reflexivity.
Qed.
(** splice goes on up to the length instead of the length less the deleted ones:
    [splice.call({0: .., 1: .., 2: .., length: 2}, 0, 2, x)] deletes element 2. *)
Theorem C91_splice_refuted :
  let w := small 2 number (fun _ => false) (Ok true) in
  exists fuel fallback this args s,
  lengths_fit w /\ existsb (Z.eqb 2) (fst (code w fuel fallback Splice this args s)) = false /\
  existsb (Z.eqb 2) (fst (spec w fuel fallback Splice this args s)) = true.
Proof.
  exists 1%nat, Undef, (Ref 0), [Num 0; Num 2; Null], [0; 1; 2].
  split; [apply small_lengths; unfold limit; lia|]. split; vm_compute; reflexivity.
Qed.
(** One round too many: inserting in front of an element that cannot be deleted
    throws. *)
Theorem C91_insert_refuted : exists w fuel fallback this args args' s,
  lengths_fit w /\ snd (code w fuel fallback Splice this args s) = Throw TypeError /\
  snd (spec w fuel fallback Splice this args s) = Ok (Ref 1) /\
  snd (code w fuel fallback Unshift this args' s) = Throw TypeError /\
  snd (spec w fuel fallback Unshift this args' s) = Ok (Num 2).
Proof.
  exists (small 1 number (fun _ => true) (Ok true)), 1%nat, Undef, (Ref 0), [Num 0; Num 0; Null], [Null], [0].
  split; [apply small_lengths; unfold limit; lia|]. repeat split; vm_compute; reflexivity.
Qed.

(** *** Examples *)
Example C90_witness :
  let w := small 3 number (fun _ => false) (Ok true) in
  lengths_fit w /\ revoked_throws w /\ snd (code w 3 Undef MapM (Ref 0) [Ref 2] [0; 2]) = Ok (Ref 1) /\
  snd (code w 3 Undef FindLastIndex (Ref 0) [Ref 2] [0; 2]) = Ok (Num 2) /\
  snd (code w 3 Undef IndexOf (Ref 0) [Null; Num 1] [0; 2]) = Ok (Num 2).
Proof.
  split; [apply small_lengths; unfold limit; lia|]. split; [intros o s s' e E; discriminate E|].
  repeat split; vm_compute; reflexivity.
Qed.
Example C90_fits_witness : let w := small 3 (fun _ => Fin 2) (fun _ => false) (Ok true) in
  indices_fit w /\ (forall a k v s s' e, create w a k v s <> (s', Throw e)) /\
  snd (code w 3 Undef With (Ref 0) [Num 2; Null] [0; 2]) = Ok (Ref 1).
Proof.
  split; [intros v s s' z E; cbn in E; injection E as _ <-; lia|]. split; [intros a k v s s' e E; discriminate E|vm_compute; reflexivity].
Qed.
Example C91_witness :
  let w := small 4 number (fun _ => false) (Ok true) in
  lengths_fit w /\ fst (code w 1 Undef Reverse (Ref 0) [] [0; 1; 3]) = [2; 0; 3] /\
  fst (code w 1 Undef CopyWithin (Ref 0) [Num 1; Num 0; Num 3] [0; 1; 3]) = [2; 0; 1].
Proof. split; [apply small_lengths; unfold limit; lia|]. split; vm_compute; reflexivity. Qed.
Definition abcd : plain := mkP (fun i => if (0 <=? i) && (i <? 4) then Some (Num (10 + i)) else None) 4 (fun _ => None) 0.
Example C91_splice_witness : dense_range abcd /\
  (let q := fst (p_splice (plain_world number) (Ref 0) [Num 1; Num 2; Null] abcd) in
   map (src q) [0; 1; 2; 3] = [Some (Num 10); Some Null; Some (Num 13); None] /\ slen q = 3 /\
   map (dst q) [0; 1; 2] = [Some (Num 11); Some (Num 12); None]) /\
  (let q := fst (p_unshift (plain_world number) (Ref 0) [Null; Null] abcd) in
   map (src q) [0; 1; 2; 5; 6] = [Some Null; Some Null; Some (Num 10); Some (Num 13); None]).
Proof.
  split; [|split; [repeat split; vm_compute; reflexivity|vm_compute; reflexivity]].
  intros i H. cbn in *. destruct (Z.leb_spec 0 i); destruct (Z.ltb_spec i 4); try reflexivity. lia.
Qed.

Print Assumptions C90_reading_methods.
Print Assumptions C90_search_methods.
Print Assumptions C90_with.
Print Assumptions C91_changing_methods.
Print Assumptions C91_splice_contents.
Print Assumptions C91_unshift_contents.
Print Assumptions C90_search_refuted.
Print Assumptions C90_negative_refuted.
Print Assumptions C90_species_refuted.
Print Assumptions C91_splice_refuted.
Print Assumptions C91_insert_refuted.
