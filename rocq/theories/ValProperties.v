(** Property theorems for boxed values (C34). *)
From Coq Require Import ZArith List Bool Lia.
Import ListNotations.
From Verif Require Import StrModel BigModel NumModel NumSpec NumProofs BufModel BufSpec BufElemSpec BufElemProofs BufProofs
  ValModel ValSpec ValProofs.
Local Open Scope Z_scope.

(** C34: every value is read back with its kind and payload. *)
Theorem C34_box_round_trip : forall v, storable v ->
  0 <= box v < 2 ^ 64 /\ get_type (box v) = kind v /\ unbox (box v) = v.
Proof. intros v H. destruct (box_kind v H). split; [assumption|]. split; [assumption | apply box_unbox; exact H]. Qed.
Print Assumptions C34_box_round_trip.

(** C34: different values have different words. *)
Theorem C34_box_injective : forall v1 v2, storable v1 -> storable v2 -> box v1 = box v2 -> v1 = v2.
Proof. exact box_inj. Qed.
Print Assumptions C34_box_injective.

(** C34: the collector follows exactly the references. *)
Theorem C34_scan_exact : forall v, storable v -> gc_scan_value (box v) = referenced v.
Proof. exact scan_spec. Qed.
Print Assumptions C34_scan_exact.

(** C34: which patterns, stored as a number, are taken for something else: the
    NaNs whose top 16 bits are one of nine tags. *)
Theorem C34_forged_patterns : forall b, 0 <= b < 2 ^ 64 ->
  (get_type (set_number b) <> TNumber <->
   exists tag x, (0x7ff9 <= tag <= 0x7ffe \/ 0xfff9 <= tag <= 0xfffb) /\ 0 <= x < 2 ^ 48 /\ b = tag * 2 ^ 48 + x).
Proof. exact forged_iff. Qed.
Print Assumptions C34_forged_patterns.

(** C34: a number read from any bytes of a buffer, in any element type and byte
    order, is stored as a number. *)
Theorem C34_buffer_never_forges : forall t is_le bs d, Forall is_byte bs -> length bs = esize t ->
  get_raw t is_le bs = SOk (JNum d) ->
  storable (VNumber d) /\ get_type (set_number d) = TNumber /\ gc_scan_value (set_number d) = None.
Proof.
  intros t is_le bs d H L G.
  assert (P : plain_number d).
  { destruct (get_meaning t is_le bs H L) as (v & G' & E).
    - intros ->. intro M. cbn [get_raw] in G. destruct (from_int64 _) as [y|]; [destruct (to_int64 y)|]; discriminate G.
    - rewrite G in G'. injection G' as <-. 
      assert (ID : forall d r, int_double d r -> plain_number d).
      { intros d0 r [[_ ->] | (_ & s & m & e & D & _)].
        - left. exists false, 0, (-1074). apply (Dsubnormal false 0). split; [discriminate | reflexivity].
        - left. exists s, m, e. exact D. }
      inversion E; subst.
      + eapply ID; eassumption.
      + eapply ID; eassumption.
      + left. eauto.
      + right. left. eauto.
      + right. right. left. reflexivity.
      + pose proof (little_range _ (in_order_bytes is_le _ H)) as R. rewrite in_order_length, L in R.
        change (2 ^ (8 * Z.of_nat (esize FLOAT64))) with (2 ^ 64) in R.
        destruct (classify _ R) as [D | [D | D]]; [left; exact D | right; left; exact D | contradiction].
      + right. right. left. reflexivity. }
  split; [exact P|]. destruct (box_kind (VNumber d) P) as [_ K]. split; [exact K|]. apply (scan_spec (VNumber d) P).
Qed.
Print Assumptions C34_buffer_never_forges.

(** C34: positions in the native stack are told apart from pointers (8-aligned)
    and recovered. *)
Theorem C34_stack_pointers : forall sp, 0 <= sp < 2 ^ 63 ->
  is_stack_pointer (stack_pointer_to_value sp) = true /\ to_stack_pointer (stack_pointer_to_value sp) = sp.
Proof. exact stack_pointer_spec. Qed.
Print Assumptions C34_stack_pointers.

(** The raw setter alone would forge: this NaN is an object reference to
    address 0x1234. *)
Example C34_setter_alone : unbox (set_number 0xfff9000000001234) = VObject 0x1234 /\
  gc_scan_value (set_number 0xfff9000000001234) = Some 0x1234.
Proof. vm_compute. auto. Qed.

Example C34_witness :
  storable (VObject 0xffff800000001230) /\ unbox (box (VObject 0xffff800000001230)) = VObject 0xffff800000001230 /\
  unbox (box (VIndexString 4294967295)) = VIndexString 4294967295 /\
  get_raw FLOAT64 false [0xff; 0xf9; 0; 0; 0; 0; 0x12; 0x34] = SOk (JNum 0x7ff8000000000000).
Proof. split; [right; split; [discriminate | reflexivity] | vm_compute; auto]. Qed.
