(** Property theorems for element access (C32). *)
From Coq Require Import ZArith List Bool Lia.
Import ListNotations.
From Verif Require Import StrModel NumModel NumSpec BigModel BigSpec BufModel BufSpec BufElemSpec BufProofs BufElemProofs.
Local Open Scope Z_scope.

(** C32: storing a value and reading the element gives the converted value, for
    every type, byte order and offset, whenever the C conversions are defined;
    otherwise the access is undefined behaviour. *)
Theorem C32_store_load_guarded : forall buf off t v is_le, (off + esize t <= length buf)%nat -> well_typed t v ->
  (defined_for t v -> exists buf' w, set_value buf off t v is_le = SOk buf' /\
     get_value buf' off t is_le = SOk w /\ converted t v w) /\
  (~ defined_for t v -> (do buf' <- set_value buf off t v is_le; get_value buf' off t is_le) = SUB).
Proof. exact set_get. Qed.
Print Assumptions C32_store_load_guarded.

(** C32: only the bytes of the element change. *)
Theorem C32_store_frame : forall buf off t v is_le buf', set_value buf off t v is_le = SOk buf' ->
  length buf' = length buf /\
  (forall i, (i < off \/ off + esize t <= i)%nat -> nth_error buf' i = nth_error buf i) /\
  (Forall is_byte buf -> Forall is_byte buf').
Proof. exact set_frame. Qed.
Print Assumptions C32_store_frame.

(** C32: the value read is the one the element's bytes encode in the given
    order; a BIGINT64 element holding -2^63 is excluded (undefined). *)
Theorem C32_load_meaning : forall t is_le bs, Forall is_byte bs -> length bs = esize t ->
  (t = BIGINT64 -> little (in_order is_le bs) <> 2 ^ 63) ->
  exists v, get_raw t is_le bs = SOk v /\ element t (little (in_order is_le bs)) v.
Proof. exact get_meaning. Qed.
Print Assumptions C32_load_meaning.

(** C32: storing a value that was read (not a NaN) leaves the buffer as it was. *)
Theorem C32_load_store : forall buf off t is_le v, Forall is_byte buf -> get_value buf off t is_le = SOk v ->
  v <> JNum 0x7ff8000000000000 -> set_value buf off t v is_le = SOk buf.
Proof. exact get_set. Qed.
Print Assumptions C32_load_store.

(** C32: the opposite byte order is the reversed bytes. *)
Theorem C32_byte_order : forall t v,
  set_raw t false v = (do bs <- set_raw t true v; SOk (rev bs)) /\
  forall bs, get_raw t false bs = get_raw t true (rev bs).
Proof. exact other_order. Qed.
Print Assumptions C32_byte_order.

(** C32: accesses outside the buffer are the only other undefined ones: inside,
    reads are defined but for -2^63 in BIGINT64. *)
Theorem C32_load_defined : forall buf off t is_le, Forall is_byte buf -> (off + esize t <= length buf)%nat ->
  (get_value buf off t is_le = SUB <->
   t = BIGINT64 /\ little (in_order is_le (firstn 8 (skipn off buf))) = 2 ^ 63).
Proof.
  intros buf off t is_le F B. unfold get_value. rewrite (proj2 (Nat.leb_le _ _) B).
  assert (FB : Forall is_byte (firstn (esize t) (skipn off buf))).
  { rewrite <- (firstn_skipn off buf) in F. apply Forall_app in F. destruct F as [_ F].
    rewrite <- (firstn_skipn (esize t) (skipn off buf)) in F. apply Forall_app in F. apply F. }
  assert (LB : length (firstn (esize t) (skipn off buf)) = esize t) by (rewrite firstn_length, skipn_length; lia).
  split.
  - intro G.
    assert (D : t = BIGINT64 \/ t <> BIGINT64) by (destruct t; (left; reflexivity) || (right; discriminate)).
    destruct D as [-> | N].
    + split; [reflexivity|]. cbn [esize] in *.
      destruct (Z.eq_dec (little (in_order is_le (firstn 8 (skipn off buf)))) (2 ^ 63)) as [E | N]; [exact E|].
      destruct (get_meaning BIGINT64 is_le _ FB LB ltac:(intros _; exact N)) as (v & X & _). rewrite X in G. discriminate G.
    + destruct (get_meaning t is_le _ FB LB ltac:(intro; contradiction)) as (v & X & _). rewrite X in G. discriminate G.
  - intros [-> E]. cbn [esize get_raw] in *. rewrite word_little by exact FB. rewrite E. reflexivity.
Qed.
Print Assumptions C32_load_defined.

(** C32 fails: reading the BigInt64 element -2^63, and storing 2^63 (a finite
    number) in an Int32 element, are undefined behaviour. *)
Theorem C32_min_element_refuted :
  get_value [0; 0; 0; 0; 0; 0; 0; 0x80] 0 BIGINT64 true = SUB /\
  well_typed INT32 (JNum 0x43e0000000000000) /\
  set_value [0; 0; 0; 0] 0 INT32 (JNum 0x43e0000000000000) true = SUB.
Proof. vm_compute. repeat split; discriminate || reflexivity. Qed.
Print Assumptions C32_min_element_refuted.

(** 1.1 as Float32; -2 as Uint16 big endian at offset 1; 2^64+5 as BigUint64 *)
Example C32_witness :
  (do b <- set_value [0; 0; 0; 0] 0 FLOAT32 (JNum 0x3ff199999999999a) true; get_value b 0 FLOAT32 true) = SOk (JNum 0x3ff19999a0000000) /\
  set_value [7; 7; 7; 7] 1 UINT16 (JNum 0xc000000000000000) false = SOk [7; 255; 254; 7] /\
  set_value (repeat 0 8) 0 BIGUINT64 (JBig {| neg := false; mag := [5; 0; 1] |}) true = SOk [5; 0; 0; 0; 0; 0; 0; 0] /\
  set_value [0; 0; 0; 0] 0 FLOAT32 (JNum 0x7fefffffffffffff) false = SOk [0x7f; 0x80; 0; 0].
Proof. vm_compute. auto. Qed.
