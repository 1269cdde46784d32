(** Property theorems for views of array buffers (C33, C45). *)
From Coq Require Import ZArith List Bool Lia.
Import ListNotations.
From Verif Require Import StrModel NumModel BufModel ViewModel ViewSpec ViewProofs ViewSafeProofs ViewCopyProofs.
Local Open Scope Z_scope.

Lemma reached_inv : forall enc dec native s, sized enc -> reached enc dec native s -> inv s.
Proof.
  intros enc dec native s E [p H]. destruct (run_ok enc dec native E p init inv_init) as (s' & R & I & _).
  rewrite H in R. injection R as ->. exact I.
Qed.
Lemma run_inv : forall enc dec native p s s', sized enc -> inv s -> run enc dec native p s = Ret tt s' -> inv s' /\ ext s s'.
Proof.
  intros enc dec native p s s' E I H. destruct (run_ok enc dec native E p s I) as (s2 & R & I2 & X).
  rewrite H in R. injection R as ->. auto.
Qed.

(** C33: every program of buffer, DataView and TypedArray operations, with user
    code (detaching included) in every conversion, runs without undefined
    behaviour, and every access it makes through a view lies in the range of that
    view. *)
Theorem C33_views_in_bounds : forall enc dec native p, sized enc ->
  exists s, run enc dec native p init = Ret tt s /\ respects s.
Proof.
  intros enc dec native p E. destruct (run_ok enc dec native E p init inv_init) as (s & R & I & _).
  exists s. split; auto. apply (i_log s I).
Qed.
Print Assumptions C33_views_in_bounds.

(** C33: the views themselves lie in their buffers as long as those are attached. *)
Theorem C33_views_fit : forall enc dec native s i v d, sized enc -> reached enc dec native s ->
  nth_error (views s) i = Some v -> contents s (vbuf v) = Some d ->
  0 <= voff v /\ 0 <= vbytes v /\ voff v + vbytes v <= Z.of_nat (length d) /\
  forall t, vtype v = Some t -> vbytes v = Z.of_nat (esize t) * vcount v.
Proof.
  intros enc dec native s i v d E R Hv Hd. pose proof (reached_inv _ _ _ _ E R) as I.
  destruct (contents_some _ _ _ I Hd) as (k & h & Hb & Hk).
  pose proof (view_wf _ _ _ I Hv) as W. destruct (view_buf _ _ _ I Hv) as (x & Hx & Q).
  rewrite Hb in Hx. injection Hx as <-. specialize (Q ltac:(discriminate)). cbn [blen] in Q.
  destruct W as (W1 & W2 & W3 & W4 & W5). split; auto. split; auto. split; auto.
  intros t Ht. rewrite Ht in W5. exact W5.
Qed.
Print Assumptions C33_views_fit.

(** C33: DataView get: the element at the index, or an exception and no access. *)
Theorem C33_data_view_get : forall enc dec native s vi v b le t d, sized enc -> reached enc dec native s ->
  nth_error (views s) vi = Some v -> vtype v = None -> contents s (vbuf v) = Some d ->
  (forall z, rjs_to_index (Some b) = Some z -> z + Z.of_nat (esize t) <= vbytes v ->
     exists s', get_view_value dec vi (Val (ret b)) le t s = Ret (dec t le (sub d (Z.to_nat (voff v + z)) (esize t))) s' /\
       forall b', contents s' b' = contents s b') /\
  (forall z, rjs_to_index (Some b) = Some z -> vbytes v < z + Z.of_nat (esize t) ->
     get_view_value dec vi (Val (ret b)) le t s = Thr s) /\
  (rjs_to_index (Some b) = None -> get_view_value dec vi (Val (ret b)) le t s = Thr s).
Proof.
  intros enc dec native s vi v b le t d E R Hv Tv Hd. pose proof (reached_inv _ _ _ _ E R) as I. split; [|split].
  - intros z Hz. exact (proj1 (view_get_spec dec s vi v b le t z d I Hv Tv Hz Hd)).
  - intros z Hz. exact (proj2 (view_get_spec dec s vi v b le t z d I Hv Tv Hz Hd)).
  - intros H. unfold get_view_value, bind, the_view. rewrite Hv, Tv. unfold to_index, bind, ret. rewrite H. reflexivity.
Qed.
Print Assumptions C33_data_view_get.

(** C33: DataView set: exactly the bytes of the element change, or an exception
    and no change. *)
Theorem C33_data_view_set : forall enc dec native s vi v b w le t d, sized enc -> reached enc dec native s ->
  nth_error (views s) vi = Some v -> vtype v = None -> contents s (vbuf v) = Some d ->
  (forall z, rjs_to_index (Some b) = Some z -> z + Z.of_nat (esize t) <= vbytes v ->
     exists s', set_view_value enc vi (Val (ret b)) le t (Val (ret w)) s = Ret 0 s' /\
       contents s' (vbuf v) = Some (splice d (Z.to_nat (voff v + z)) (enc t le w)) /\
       forall b', ~ shares s (vbuf v) b' -> contents s' b' = contents s b') /\
  (forall z, rjs_to_index (Some b) = Some z -> vbytes v < z + Z.of_nat (esize t) ->
     set_view_value enc vi (Val (ret b)) le t (Val (ret w)) s = Thr s) /\
  (rjs_to_index (Some b) = None -> set_view_value enc vi (Val (ret b)) le t (Val (ret w)) s = Thr s).
Proof.
  intros enc dec native s vi v b w le t d E R Hv Tv Hd. pose proof (reached_inv _ _ _ _ E R) as I. split; [|split].
  - intros z Hz. exact (proj1 (view_set_spec enc E s vi v b w le t z d I Hv Tv Hz Hd)).
  - intros z Hz. exact (proj2 (view_set_spec enc E s vi v b w le t z d I Hv Tv Hz Hd)).
  - intros H. unfold set_view_value, bind, the_view. rewrite Hv, Tv. unfold to_index, bind, ret. rewrite H. reflexivity.
Qed.
Print Assumptions C33_data_view_set.

(** C33: element access of a TypedArray by any double: the element if it is an
    index of the array, otherwise nothing. *)
Theorem C33_element_get : forall enc dec native s vi v t n d, sized enc -> reached enc dec native s ->
  nth_error (views s) vi = Some v -> vtype v = Some t -> contents s (vbuf v) = Some d ->
  (forall i, denotes n i -> 0 <= i < vcount v ->
     exists s', element_get dec native vi n s = Ret (Some (dec t native (sub d (element_start v t i) (esize t)))) s' /\
       forall b', contents s' b' = contents s b') /\
  ((forall i, denotes n i -> ~ 0 <= i < vcount v) -> element_get dec native vi n s = Ret None s).
Proof.
  intros enc dec native s vi v t n d E R. apply element_get_spec. eapply reached_inv; eauto.
Qed.
Print Assumptions C33_element_get.
Theorem C33_element_set : forall enc dec native s vi v t n w d, sized enc -> reached enc dec native s ->
  nth_error (views s) vi = Some v -> vtype v = Some t -> contents s (vbuf v) = Some d ->
  (forall i, denotes n i -> 0 <= i < vcount v ->
     exists s', element_set enc native vi n (Val (ret w)) s = Ret tt s' /\
       contents s' (vbuf v) = Some (splice d (element_start v t i) (enc t native w)) /\
       forall b', ~ shares s (vbuf v) b' -> contents s' b' = contents s b') /\
  ((forall i, denotes n i -> ~ 0 <= i < vcount v) -> element_set enc native vi n (Val (ret w)) s = Ret tt s).
Proof.
  intros enc dec native s vi v t n w d E R. apply (element_set_spec enc); auto. eapply reached_inv; eauto.
Qed.
Print Assumptions C33_element_set.

(** C33: on a detached buffer every access throws or is ignored, and none reaches
    memory. *)
Theorem C33_detached : forall enc dec native s vi v b w n le t, sized enc -> reached enc dec native s ->
  nth_error (views s) vi = Some v -> contents s (vbuf v) = None ->
  get_view_value dec vi (Val (ret b)) le t s = Thr s /\
  set_view_value enc vi (Val (ret b)) le t (Val (ret w)) s = Thr s /\
  (vtype v <> None -> element_get dec native vi n s = Ret None s /\ element_set enc native vi n (Val (ret w)) s = Ret tt s).
Proof.
  intros enc dec native s vi v b w n le t E R Hv Hd. pose proof (reached_inv _ _ _ _ E R) as I.
  destruct (view_buf _ _ _ I Hv) as (x & Hx & _). pose proof (contents_none _ _ _ I Hx Hd) as Dx.
  pose proof (check_eq _ _ _ Hx) as Ck. rewrite Dx in Ck.
  split; [|split].
  - unfold get_view_value. unfold bind at 1, the_view. rewrite Hv. destruct (vtype v); auto.
    unfold to_index, bind, ret. destruct (rjs_to_index (Some b)); auto. rewrite Ck. reflexivity.
  - unfold set_view_value. unfold bind at 1, the_view. rewrite Hv. destruct (vtype v); auto.
    unfold to_index, to_value, bind, ret. destruct (rjs_to_index (Some b)); auto. rewrite Ck. reflexivity.
  - intros T. destruct (vtype v) as [t'|] eqn:Tv; [|congruence].
    unfold element_get, element_set, is_valid_int_index, is_detached, the_buf, to_value, bind.
    rewrite (the_array_eq vi v t' s Hv Tv). unfold ret. rewrite Hx, Dx. auto.
Qed.
Print Assumptions C33_detached.

(** ** C45 *)

(** The end argument: undefined, or converted by user code. *)
Definition end_arg enc dec native (len : Z) (q : option (list act * Z)) : arg * num :=
  match q with
  | None => (Undef, Fin len)
  | Some (p, r) => (converts enc dec native p r, to_integer_or_infinity r)
  end.
Definition end_runs enc dec native (q : option (list act * Z)) (s s' : st) : Prop :=
  match q with None => s' = s | Some (p, _) => run enc dec native p s = Ret tt s' end.

Lemma converts_integer : forall enc dec native p r s s', run enc dec native p s = Ret tt s' ->
  to_integer (converts enc dec native p r) s = Ret (to_integer_or_infinity r) s'.
Proof.
  intros enc dec native p r s s' H. unfold to_integer, converts, bind. rewrite H. reflexivity.
Qed.

(** C45: copyWithin, with user code in the conversion of each argument: the
    clamped source range as it is after the conversions replaces the target range;
    no other byte of any buffer changes.  If the buffer was detached in between:
    TypeError.  Nothing to copy: nothing happens. *)
Theorem C45_copy_within : forall enc dec native s vi v t p0 r0 p1 r1 q s1 s2 s3, sized enc -> reached enc dec native s ->
  nth_error (views s) vi = Some v -> vtype v = Some t -> contents s (vbuf v) <> None ->
  run enc dec native p0 s = Ret tt s1 -> run enc dec native p1 s1 = Ret tt s2 -> end_runs enc dec native q s2 s3 ->
  let len := vcount v in
  let to := clamped (to_integer_or_infinity r0) len in
  let from := clamped (to_integer_or_infinity r1) len in
  let final := clamped (snd (end_arg enc dec native len q)) len in
  let count := Z.min (final - from) (len - to) in
  let call := copy_within vi (converts enc dec native p0 r0) (converts enc dec native p1 r1) (fst (end_arg enc dec native len q)) s in
  (count <= 0 -> call = Ret tt s3) /\
  (0 < count -> contents s3 (vbuf v) = None -> call = Thr s3) /\
  (0 < count -> forall d, contents s3 (vbuf v) = Some d ->
     exists s', call = Ret tt s' /\
       contents s' (vbuf v) = Some (splice d (element_start v t to)
                                      (sub d (element_start v t from) (Z.to_nat (Z.of_nat (esize t) * count)))) /\
       (forall b', ~ shares s3 (vbuf v) b' -> contents s' b' = contents s3 b') /\
       overlap s' = overlap s3 /\ stuck s' = stuck s3).
Proof.
  intros enc dec native s vi v t p0 r0 p1 r1 q s1 s2 s3 E R Hv Ht Hc R0 R1 R2 len to from final count call.
  pose proof (reached_inv _ _ _ _ E R) as I.
  destruct (run_inv _ _ _ _ _ _ E I R0) as [I1 X1]. destruct (run_inv _ _ _ _ _ _ E I1 R1) as [I2 X2].
  assert (A : inv s3 /\ ext s2 s3 /\ to_end (fst (end_arg enc dec native len q)) (vcount v) s2 = Ret (snd (end_arg enc dec native len q)) s3).
  { destruct q as [[p2 r2]|]; cbn [end_runs end_arg fst snd] in *.
    - destruct (run_inv _ _ _ _ _ _ E I2 R2) as [I3 X3]. split; auto. split; auto.
      unfold to_end, converts. apply converts_integer. auto.
    - subst s3. split; auto. split; [apply ext_refl|]. reflexivity. }
  destruct A as (I3 & X3 & A2).
  apply (copy_within_spec s vi v t _ _ _ _ _ _ s1 s2 s3); auto.
  - eapply ext_trans; [exact X1|]. eapply ext_trans; eauto.
  - apply converts_integer; auto.
  - apply converts_integer; auto.
Qed.
Print Assumptions C45_copy_within.

(** C45: set from another view: the source elements as they are after the
    conversion of the offset, converted to the target type, replace the target
    range, whether or not the two views share memory; the copy never uses memcpy
    on overlapping memory.  Too long a source: RangeError. *)
Theorem C45_set_from_view : forall enc dec native s ti si tv sv ttp stp p r o s1 dt ds, sized enc -> reached enc dec native s ->
  nth_error (views s) ti = Some tv -> vtype tv = Some ttp ->
  nth_error (views s) si = Some sv -> vtype sv = Some stp ->
  run enc dec native p s = Ret tt s1 -> to_integer_or_infinity r = Fin o -> 0 <= o ->
  contents s1 (vbuf tv) = Some dt -> contents s1 (vbuf sv) = Some ds ->
  content_is_big_int ttp = content_is_big_int stp ->
  let call := set_typed enc dec native ti si (converts enc dec native p r) true s in
  (vcount tv < vcount sv + o -> call = Thr s1) /\
  (vcount sv + o <= vcount tv ->
   exists s', call = Ret tt s' /\
     contents s' (vbuf tv) = Some (splice dt (element_start tv ttp o)
        (stored_bytes enc dec native stp ttp (Z.to_nat (vcount sv)) (sub ds (Z.to_nat (voff sv)) (Z.to_nat (vbytes sv))))) /\
     (forall b', (b' < length (bufs s1))%nat -> ~ shares s1 (vbuf tv) b' -> contents s' b' = contents s1 b') /\
     overlap s' = overlap s1 /\ stuck s' = stuck s1).
Proof.
  intros enc dec native s ti si tv sv ttp stp p r o s1 dt ds E R Ht Tt Hs Ts Rp Ro Ho Hdt Hds Big call.
  pose proof (reached_inv _ _ _ _ E R) as I. destruct (run_inv _ _ _ _ _ _ E I Rp) as [I1 X1].
  apply (set_typed_spec enc dec native E s ti si tv sv ttp stp _ o s1 dt ds); auto.
  rewrite <- Ro. apply converts_integer; auto.
Qed.
Print Assumptions C45_set_from_view.

(** ** Examples: values are stored as plain words *)
Definition enc0 (t : etype) (le : bool) (v : Z) : list Z := bytes le (esize t) v.
Definition dec0 (t : etype) (le : bool) (bs : list Z) : Z := word le bs.
Definition lit (z : Z) : option (list act * option Z) := Some ([], Some (dbl_of_int z)).
Definition raw (z : Z) : option (list act * option Z) := Some ([], Some z).
Definition run0 (p : list act) : res done := run enc0 dec0 true p init.
Definition contents0 (p : list act) (b : nat) : option (list Z) :=
  match run0 p with Ret _ s => contents s b | _ => None end.
Definition log0 (p : list act) : list event := match run0 p with Ret _ s => log s | _ => [] end.
Definition flags0 (p : list act) : bool * bool := match run0 p with Ret _ s => (overlap s, stuck s) | _ => (false, false) end.

Lemma enc0_sized : sized enc0.
Proof. intros t le v. unfold enc0, bytes, le_bytes. destruct le; rewrite ?rev_length, map_length, seq_length; reflexivity. Qed.

(** Eight bytes 0 .. 7; view 0: all as Uint8; view 1: DataView on bytes 2 .. 6;
    view 2: Uint16 on bytes 2 .. 8. *)
Definition setup : list act :=
  [ Do (ONewBuffer false true) [lit 8]; Do (ONewOnBuffer UINT8 0) [None; lit 0; None];
    Do (ONewDataView 0) [lit 2; lit 4]; Do (ONewOnBuffer UINT16 0) [None; lit 2; None];
    Do (OSetList 0) [lit 0; None; raw 0; raw 1; raw 2; raw 3; raw 4; raw 5; raw 6; raw 7] ].

(** In range: the bytes of the element; at the end, past it, far past it, negative
    and NaN: no access. *)
Example C33_witness :
  sized enc0 /\
  contents0 setup 0 = Some [0; 1; 2; 3; 4; 5; 6; 7] /\
  contents0 (setup ++ [Do (OSetView 1 UINT16 false) [lit 2; raw 0xaabb]]) 0 = Some [0; 1; 2; 3; 0xaa; 0xbb; 6; 7] /\
  log0 (setup ++ [Do (OGetView 1 UINT16 true) [lit 2]]) = log0 setup ++ [Ev false 0 4 2 1] /\
  log0 (setup ++ [Do (OGetView 1 UINT16 true) [lit 3]]) = log0 setup /\
  log0 (setup ++ [Do (OGetView 1 UINT16 true) [lit (2 ^ 53 - 1)]]) = log0 setup /\
  log0 (setup ++ [Do (OGetView 1 UINT16 true) [lit (-1)]]) = log0 setup /\
  log0 (setup ++ [Do (OGet 0 (dbl_of_int 7)) []; Do (OGet 0 (dbl_of_int 8)) []; Do (OGet 0 0x8000000000000000) []])
    = log0 setup ++ [Ev false 0 7 1 0].
Proof. split; [exact enc0_sized|]. vm_compute. repeat split; auto. Qed.

(** The index argument detaches the buffer: no access. *)
Example C33_witness_detach :
  log0 (setup ++ [Do (OSetView 1 UINT8 true) [lit 0; Some ([Do (ODetach 0) []], Some 7)]]) = log0 setup /\
  contents0 (setup ++ [Do (OSetView 1 UINT8 true) [lit 0; Some ([Do (ODetach 0) []], Some 7)]]) 0 = None.
Proof. vm_compute. repeat split; auto. Qed.

(** Overlapping copies in both directions; set from an overlapping view of
    another type: the 16-bit elements 2, 3, 4 of bytes 2 .. 8 become bytes 1 .. 4 *)
Example C45_witness :
  contents0 (setup ++ [Do (OCopyWithin 0) [lit 2; lit 0; lit 5]]) 0 = Some [0; 1; 0; 1; 2; 3; 4; 7] /\
  contents0 (setup ++ [Do (OCopyWithin 0) [lit 0; lit 1; None]]) 0 = Some [1; 2; 3; 4; 5; 6; 7; 7] /\
  contents0 (setup ++ [Do (OCopyWithin 2) [lit 1; lit (-3); lit (-1)]]) 0 = Some [0; 1; 2; 3; 2; 3; 4; 5] /\
  contents0 (setup ++ [Do (OSetTyped 0 2 true) [lit 1]]) 0 = Some [0; 2; 4; 6; 4; 5; 6; 7] /\
  flags0 (setup ++ [Do (OSetTyped 0 2 true) [lit 1]]) = (false, false).
Proof. vm_compute. repeat split; auto. Qed.

(** ** C65 *)

(** Do two live buffers share memory, and is that memory shared between agents? *)
Definition same_memory (s : st) (b b' : nat) : bool :=
  match nth_error (bufs s) b, nth_error (bufs s) b' with
  | Some (mkBuf (Some k) _), Some (mkBuf (Some k') _) => Nat.eqb k k'
  | _, _ => false
  end.
Definition shared_memory (s : st) (b : nat) : bool :=
  match nth_error (bufs s) b with
  | Some (mkBuf (Some k) _) => match nth_error (blocks s) k with Some x => bshared x | None => false end
  | _ => false
  end.

(** C65: slice into an array of the same type (the one the species constructor
    gave, [s3] being the state after all user code): the source range, as it was
    before the copy, is written to the start of the result; no other byte changes.
    memcpy is applied to overlapping memory exactly if the two ranges intersect in
    the same memory, and a mutex is locked twice exactly if both views are on the
    same SharedArrayBuffer memory. *)
Theorem C65_slice_same_type : forall enc dec native s vi v t p0 r0 q ps n s1 s2 s3 w dt ds, sized enc -> reached enc dec native s ->
  nth_error (views s) vi = Some v -> vtype v = Some t -> contents s (vbuf v) <> None ->
  run enc dec native p0 s = Ret tt s1 -> end_runs enc dec native q s1 s2 -> run enc dec native ps s2 = Ret tt s3 ->
  nth_error (views s3) (Z.to_nat n) = Some w -> vtype w = Some t ->
  contents s3 (vbuf w) = Some dt -> contents s3 (vbuf v) = Some ds ->
  let from := clamped (to_integer_or_infinity r0) (vcount v) in
  let count := clamped (snd (end_arg enc dec native (vcount v) q)) (vcount v) - from in
  0 < count -> count <= vcount w ->
  let bytes := Z.of_nat (esize t) * count in
  let first := voff v + Z.of_nat (esize t) * from in
  exists s', slice enc dec native vi (converts enc dec native p0 r0) (fst (end_arg enc dec native (vcount v) q))
               (converts enc dec native ps n) s = Ret (Z.of_nat (Z.to_nat n)) s' /\
    contents s' (vbuf w) = Some (splice dt (Z.to_nat (voff w)) (sub ds (element_start v t from) (Z.to_nat bytes))) /\
    (forall b', ~ shares s3 (vbuf w) b' -> contents s' b' = contents s3 b') /\
    overlap s' = overlap s3 || (same_memory s3 (vbuf w) (vbuf v) && (voff w <? first + bytes) && (first <? voff w + bytes)) /\
    stuck s' = stuck s3 || (same_memory s3 (vbuf w) (vbuf v) && shared_memory s3 (vbuf v)).
Proof.
  intros enc dec native s vi v t p0 r0 q ps n s1 s2 s3 w dt ds E R Hv Ht Hc R0 R1 R2 Hw Tw Hdt Hds from count C1 C2 bytes first.
  pose proof (reached_inv _ _ _ _ E R) as I.
  destruct (run_inv _ _ _ _ _ _ E I R0) as [I1 X1].
  assert (A : inv s2 /\ ext s1 s2 /\ to_end (fst (end_arg enc dec native (vcount v) q)) (vcount v) s1 = Ret (snd (end_arg enc dec native (vcount v) q)) s2).
  { destruct q as [[p2 r2]|]; cbn [end_runs end_arg fst snd] in *.
    - destruct (run_inv _ _ _ _ _ _ E I1 R1) as [I3 X3]. split; auto. split; auto.
      unfold to_end, converts. apply converts_integer. auto.
    - subst s2. split; auto. split; [apply ext_refl|]. reflexivity. }
  destruct A as (I2 & X2 & A2). destruct (run_inv _ _ _ _ _ _ E I2 R2) as [I3 X3].
  destruct (slice_spec enc dec native s vi v t (converts enc dec native p0 r0) (fst (end_arg enc dec native (vcount v) q))
    (converts enc dec native ps n) (to_integer_or_infinity r0) (snd (end_arg enc dec native (vcount v) q)) s1 s2 s3 n (Z.to_nat n) w dt ds) as (s' & S1 & S2 & S3 & S4 & S5); auto.
  - eapply ext_trans; eauto.
  - apply converts_integer; auto.
  - unfold user, to_value, converts, bind. rewrite R2. reflexivity.
  - exists s'. split; [exact S1|]. split; [exact S2|]. split; [exact S3|].
    assert (Sm : (if Nat.eqb (vbuf w) (vbuf v) then true
              else match nth_error (bufs s3) (vbuf w), nth_error (bufs s3) (vbuf v) with
                   | Some (mkBuf (Some k) _), Some (mkBuf (Some k') _) => Nat.eqb k k'
                   | _, _ => false end) = same_memory s3 (vbuf w) (vbuf v)).
    { unfold same_memory. destruct (Nat.eqb_spec (vbuf w) (vbuf v)) as [Eb|]; auto.
      rewrite Eb. destruct (contents_some _ _ _ I3 Hds) as (k & h & Hb & _). rewrite Hb, Nat.eqb_refl. reflexivity. }
    rewrite Sm in S4, S5. split; [exact S4|exact S5].
Qed.
Print Assumptions C65_slice_same_type.

(** C65: without user code giving a view of the same memory (in particular with
    the default species, whose array has a buffer of its own) the copy is safe. *)
Theorem C65_slice_guarded : forall enc dec native s vi v t p0 r0 q ps n s1 s2 s3 w dt ds, sized enc -> reached enc dec native s ->
  nth_error (views s) vi = Some v -> vtype v = Some t -> contents s (vbuf v) <> None ->
  run enc dec native p0 s = Ret tt s1 -> end_runs enc dec native q s1 s2 -> run enc dec native ps s2 = Ret tt s3 ->
  nth_error (views s3) (Z.to_nat n) = Some w -> vtype w = Some t ->
  contents s3 (vbuf w) = Some dt -> contents s3 (vbuf v) = Some ds ->
  let from := clamped (to_integer_or_infinity r0) (vcount v) in
  let count := clamped (snd (end_arg enc dec native (vcount v) q)) (vcount v) - from in
  0 < count -> count <= vcount w ->
  ~ shares s3 (vbuf w) (vbuf v) ->
  exists s', slice enc dec native vi (converts enc dec native p0 r0) (fst (end_arg enc dec native (vcount v) q))
               (converts enc dec native ps n) s = Ret (Z.of_nat (Z.to_nat n)) s' /\
    overlap s' = overlap s3 /\ stuck s' = stuck s3 /\ contents s' (vbuf v) = Some ds.
Proof.
  intros enc dec native s vi v t p0 r0 q ps n s1 s2 s3 w dt ds E R Hv Ht Hc R0 R1 R2 Hw Tw Hdt Hds from count C1 C2 N.
  destruct (C65_slice_same_type enc dec native s vi v t p0 r0 q ps n s1 s2 s3 w dt ds E R Hv Ht Hc R0 R1 R2 Hw Tw Hdt Hds C1 C2)
    as (s' & S1 & S2 & S3 & S4 & S5).
  assert (Sm : same_memory s3 (vbuf w) (vbuf v) = false).
  { unfold same_memory. destruct (nth_error (bufs s3) (vbuf w)) as [[[k|] m]|] eqn:A; auto.
    destruct (nth_error (bufs s3) (vbuf v)) as [[[k'|] m']|] eqn:B; auto.
    destruct (Nat.eqb_spec k k') as [Ek|]; auto. exfalso. apply N. exists k, m, m'. subst k'. auto. }
  rewrite Sm in S4, S5. cbn [andb] in S4, S5. rewrite orb_false_r in S4, S5.
  exists s'. split; [exact S1|]. split; [exact S4|]. split; [exact S5|]. rewrite S3; auto.
Qed.
Print Assumptions C65_slice_guarded.

(** C65 fails: a species constructor that gives a view of the same memory makes
    slice call memcpy on overlapping ranges; on a SharedArrayBuffer it locks the
    block's mutex twice, so the thread waits for itself forever. *)
Definition shared_setup : list act :=
  [ Do (ONewBuffer true true) [lit 8]; Do (ONewOnBuffer UINT8 0) [None; lit 0; None] ].
Theorem C65_slice_overlap_refuted :
  flags0 setup = (false, false) /\ flags0 shared_setup = (false, false) /\
  flags0 (setup ++ [Do (OSlice 0) [lit 1; lit 4; Some ([Do (ONewOnBuffer UINT8 0) [None; lit 2; None]], Some 3)]]) = (true, false) /\
  flags0 (shared_setup ++ [Do (OSlice 0) [lit 0; lit 2; Some ([Do (ONewOnBuffer UINT8 0) [None; lit 4; None]], Some 1)]]) = (false, true).
Proof. vm_compute. repeat split; auto. Qed.
Print Assumptions C65_slice_overlap_refuted.

(** A species with a fresh buffer: bytes 1, 2, 3 are copied. *)
Example C65_witness :
  contents0 (setup ++ [Do (OSlice 0) [lit 1; lit 4; Some ([Do (ONewLength UINT8 true) [lit 3]], Some 3)]]) 1 = Some [1; 2; 3] /\
  flags0 (setup ++ [Do (OSlice 0) [lit 1; lit 4; Some ([Do (ONewLength UINT8 true) [lit 3]], Some 3)]]) = (false, false).
Proof. vm_compute. repeat split; auto. Qed.
