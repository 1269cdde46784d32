From Coq Require Import ZArith List Bool Lia.
Import ListNotations.
From Verif Require Import NumModel NumSpec NumProofs ValModel ValSpec.
Local Open Scope Z_scope.

Lemma lor_tag : forall tag x, 0 <= x < 2 ^ 48 -> Z.lor (from_tag tag) x = tag * 2 ^ 48 + x.
Proof.
  intros tag x H. unfold from_tag. rewrite Z.shiftl_mul_pow2 by lia.
  rewrite <- Z.lxor_lor, <- Z.add_nocarry_lxor; [reflexivity| |]; apply Z.bits_inj'; intros i Hi;
    rewrite Z.land_spec, Z.bits_0, <- Z.shiftl_mul_pow2 by lia; rewrite Z.shiftl_spec by lia;
    (destruct (Z.ltb_spec i 48);
     [rewrite (Z.testbit_neg_r tag (i - 48)) by lia; reflexivity
     | rewrite <- (Z.mod_small x (2 ^ 48)) by lia; rewrite Z.mod_pow2_bits_high by lia; apply andb_false_r]).
Qed.

Lemma get_tag_word : forall tag x, 0 <= tag < 2 ^ 16 -> 0 <= x < 2 ^ 48 -> get_tag (tag * 2 ^ 48 + x) = tag.
Proof.
  intros tag x Ht Hx. unfold get_tag. rewrite Z.shiftr_div_pow2 by lia.
  change 0xffff with (Z.ones 16). rewrite Z.land_ones by lia.
  rewrite Z.add_comm, Z.div_add by lia. rewrite Z.div_small by lia. apply Z.mod_small. lia.
Qed.

Lemma get_tag_div : forall w, 0 <= w < 2 ^ 64 -> get_tag w = w / 2 ^ 48.
Proof.
  intros w H. unfold get_tag. rewrite Z.shiftr_div_pow2 by lia. change 0xffff with (Z.ones 16).
  rewrite Z.land_ones by lia. apply Z.mod_small. split; [apply Z.div_pos; lia|].
  apply Z.div_lt_upper_bound; [lia|]. rewrite <- Z.pow_add_r by lia. exact (proj2 H).
Qed.

Lemma land48 : forall p, Z.land p 0xffffffffffff = p mod 2 ^ 48.
Proof. intro p. change 0xffffffffffff with (Z.ones 48). apply Z.land_ones. lia. Qed.

Lemma land_bit47 : forall p, 0 <= p < 2 ^ 48 ->
  negb (Z.land p 0x800000000000 =? 0) = (2 ^ 47 <=? p).
Proof.
  intros p H.
  assert (E : Z.land p 0x800000000000 = if Z.testbit p 47 then 2 ^ 47 else 0).
  { apply Z.bits_inj'. intros i Hi. rewrite Z.land_spec. change 0x800000000000 with (2 ^ 47).
    rewrite Z.pow2_bits_eqb by lia. destruct (Z.eqb_spec 47 i) as [<- | N].
    - rewrite andb_true_r. destruct (Z.testbit p 47); [reflexivity | rewrite Z.bits_0; reflexivity].
    - rewrite andb_false_r. destruct (Z.testbit p 47); [rewrite Z.pow2_bits_false by lia; reflexivity | rewrite Z.bits_0; reflexivity]. }
  rewrite E.
  assert (T : Z.testbit p 47 = (2 ^ 47 <=? p)).
  { rewrite <- (Z.bit0_odd) || idtac. rewrite Z.testbit_odd, Z.shiftr_div_pow2 by lia.
    destruct (Z.leb_spec (2 ^ 47) p).
    - replace (p / 2 ^ 47) with 1; [reflexivity|]. apply (Z.div_unique p (2 ^ 47) 1 (p - 2 ^ 47)); [|lia].
      left. change (2 ^ 48) with (2 * 2 ^ 47) in H. lia.
    - rewrite Z.div_small by lia. reflexivity. }
  rewrite T. destruct (2 ^ 47 <=? p); reflexivity.
Qed.

(** the pointer round trip, for every 64-bit tag word *)
Lemma get_gc_thing_word : forall tag p, canonical p ->
  get_gc_thing (tag * 2 ^ 48 + p mod 2 ^ 48) = p.
Proof.
  intros tag p H. unfold get_gc_thing. rewrite land48.
  rewrite Z.add_comm, Z.mod_add, Z.mod_mod by lia.
  pose proof (Z.mod_pos_bound p (2 ^ 48) ltac:(lia)) as B.
  rewrite (land_bit47 _ B).
  destruct H as [H | H].
  - assert (M : p mod 2 ^ 48 = p) by (apply Z.mod_small; change (2 ^ 48) with (2 * 2 ^ 47); lia).
    rewrite M. destruct (Z.leb_spec (2 ^ 47) p); [lia | reflexivity].
  - assert (M : p mod 2 ^ 48 = p - 0xffff * 2 ^ 48).
    { symmetry. apply (Z.mod_unique_pos p (2 ^ 48) 0xffff).
      - change (2 ^ 64) with (65536 * 2 ^ 48) in H. change (2 ^ 48) with (2 * 2 ^ 47) in *. lia.
      - lia. }
    rewrite M. destruct (Z.leb_spec (2 ^ 47) (p - 0xffff * 2 ^ 48)).
    + rewrite Z.lor_comm. change 0xffff000000000000 with (from_tag 0xffff). rewrite lor_tag by lia. lia.
    + exfalso. change (2 ^ 64) with (65536 * 2 ^ 48) in H. change (2 ^ 48) with (2 * 2 ^ 47) in *. lia.
Qed.

Lemma set_gc_word : forall p tag, set_gc_thing_tag p tag = tag * 2 ^ 48 + p mod 2 ^ 48.
Proof.
  intros. unfold set_gc_thing_tag. rewrite land48. apply lor_tag. apply Z.mod_pos_bound. lia.
Qed.

Lemma pointer_word : forall p tag, canonical p -> 0 <= tag < 2 ^ 16 ->
  get_tag (set_gc_thing_tag p tag) = tag /\ get_gc_thing (set_gc_thing_tag p tag) = p /\
  0 <= set_gc_thing_tag p tag < 2 ^ 64.
Proof.
  intros p tag C H. rewrite set_gc_word. pose proof (Z.mod_pos_bound p (2 ^ 48) ltac:(lia)) as B.
  split; [apply get_tag_word; assumption|]. split; [apply get_gc_thing_word; exact C|].
  change (2 ^ 64) with (2 ^ 16 * 2 ^ 48). nia.
Qed.

(** tags of numbers: below 0x7ff9, 0x7fff, or 0x8000..0xfff8, 0xfffc.. *)
Definition reserved (t : Z) : bool :=
  ((0x7ff9 <=? t) && (t <=? 0x7ffe)) || ((0xfff9 <=? t) && (t <=? 0xfffb)).

Lemma get_type_number : forall w, get_type w = TNumber <-> reserved (get_tag w) = false.
Proof.
  intro w. unfold get_type, reserved, TAG_UNDEFINED, TAG_NULL, TAG_BOOLEAN, TAG_STRING, TAG_INDEX_STRING,
    TAG_SYMBOL, TAG_BIG_INT, TAG_OBJECT, TAG_GC_THING.
  generalize (get_tag w). intro t.
  repeat (match goal with |- context [?a =? ?b] => destruct (Z.eqb_spec a b); [subst; cbn; split; discriminate|] end;
          cbn [orb]).
  split; [intros _ | reflexivity].
  destruct (Z.leb_spec 0x7ff9 t); destruct (Z.leb_spec t 0x7ffe); destruct (Z.leb_spec 0xfff9 t); destruct (Z.leb_spec t 0xfffb);
    cbn [andb orb]; try reflexivity; exfalso; lia.
Qed.

Lemma plain_tag : forall b, plain_number b -> 0 <= b < 2 ^ 64 /\ reserved (get_tag b) = false.
Proof.
  intros b H.
  assert (K : forall S E M : Z, 0 <= S <= 1 -> 0 <= E <= 2047 -> 0 <= M < 2 ^ 52 -> (E < 2047 \/ M < 2 ^ 48) ->
    0 <= S * 2 ^ 63 + E * 2 ^ 52 + M < 2 ^ 64 /\ reserved (get_tag (S * 2 ^ 63 + E * 2 ^ 52 + M)) = false).
  { intros S E M HS HE HM HX.
    assert (R : 0 <= S * 2 ^ 63 + E * 2 ^ 52 + M < 2 ^ 64) by (p52; lia). split; [exact R|].
    rewrite get_tag_div by exact R.
    replace (S * 2 ^ 63 + E * 2 ^ 52 + M) with (M + (S * 32768 + E * 16) * 2 ^ 48) by (p52; change (2 ^ 48) with 281474976710656; lia).
    rewrite Z.div_add by lia.
    assert (MB : 0 <= M / 2 ^ 48 < 16).
    { split; [apply Z.div_pos; lia | apply Z.div_lt_upper_bound; [lia|]]. change (2 ^ 48 * 16) with (2 ^ 52). lia. }
    assert (MX : E < 2047 \/ M / 2 ^ 48 = 0) by (destruct HX; [left; lia | right; apply Z.div_small; lia]).
    generalize dependent (M / 2 ^ 48). intros q MB MX. unfold reserved.
    destruct (Z.leb_spec 0x7ff9 (q + (S * 32768 + E * 16))); destruct (Z.leb_spec (q + (S * 32768 + E * 16)) 0x7ffe);
      destruct (Z.leb_spec 0xfff9 (q + (S * 32768 + E * 16))); destruct (Z.leb_spec (q + (S * 32768 + E * 16)) 0xfffb);
      cbn [andb orb]; try reflexivity; exfalso; lia. }
  destruct H as [(s & m & e & D) | [[s D] | [-> | ->]]].
  - destruct D as [s E M HE HM | s M HM].
    + apply K; try lia. apply zs_bound.
    + replace ((if s then 1 else 0) * 2 ^ 63 + M) with ((if s then 1 else 0) * 2 ^ 63 + 0 * 2 ^ 52 + M) by lia.
      apply K; try lia. apply zs_bound.
  - rewrite D. rewrite <- (Z.add_0_r (_ + _)). apply K; try lia. apply zs_bound.
  - split; [split; [discriminate | reflexivity] | reflexivity].
  - split; [split; [discriminate | reflexivity] | reflexivity].
Qed.

Lemma index_word : forall i, 0 <= i < 2 ^ 32 ->
  set_index_string i = TAG_INDEX_STRING * 2 ^ 48 + i.
Proof. intros i H. unfold set_index_string. apply lor_tag. change (2 ^ 32) with 4294967296 in H. change (2 ^ 48) with 281474976710656. lia. Qed.

Lemma type_of_tag : forall w w', get_tag w = get_tag w' -> get_type w = get_type w'.
Proof. intros w w' H. unfold get_type. rewrite H. reflexivity. Qed.

Lemma box_kind : forall v, storable v -> 0 <= box v < 2 ^ 64 /\ get_type (box v) = kind v.
Proof.
  intros v H.
  destruct v as [| |b|n|p|i|p|p|p|p]; cbn [storable box kind] in *;
    try (split; [split; [discriminate | reflexivity] | reflexivity]);
    try (destruct (pointer_word p TAG_STRING H) as (T & _ & R); [split; [discriminate | reflexivity]|]);
    try (split; [exact R|]; unfold get_type; rewrite T; reflexivity).
  - destruct b; (split; [split; [discriminate | reflexivity] | reflexivity]).
  - destruct (plain_tag _ H) as [R T]. split; [exact R|]. apply get_type_number. exact T.
  - rewrite index_word by exact H.
    assert (0 <= i < 2 ^ 48) by (change (2 ^ 32) with 4294967296 in H; change (2 ^ 48) with 281474976710656; lia).
    split; [change (2 ^ 64) with (65536 * 2 ^ 48); unfold TAG_INDEX_STRING; lia|].
    unfold get_type. rewrite get_tag_word by (assumption || (split; [discriminate | reflexivity])). reflexivity.
  - destruct (pointer_word p TAG_SYMBOL H) as (T' & _ & R'); [split; [discriminate | reflexivity]|].
    split; [exact R'|]. unfold get_type; rewrite T'; reflexivity.
  - destruct (pointer_word p TAG_BIG_INT H) as (T' & _ & R'); [split; [discriminate | reflexivity]|].
    split; [exact R'|]. unfold get_type; rewrite T'; reflexivity.
  - destruct (pointer_word p TAG_OBJECT H) as (T' & _ & R'); [split; [discriminate | reflexivity]|].
    split; [exact R'|]. unfold get_type; rewrite T'; reflexivity.
  - destruct (pointer_word p TAG_GC_THING H) as (T' & _ & R'); [split; [discriminate | reflexivity]|].
    split; [exact R'|]. unfold get_type; rewrite T'; reflexivity.
Qed.

Lemma box_unbox : forall v, storable v -> unbox (box v) = v.
Proof.
  intros v H. unfold unbox. rewrite (proj2 (box_kind v H)).
  assert (T16 : forall t, t = TAG_STRING \/ t = TAG_SYMBOL \/ t = TAG_BIG_INT \/ t = TAG_OBJECT \/ t = TAG_GC_THING -> 0 <= t < 2 ^ 16).
  { intros t [-> | [-> | [-> | [-> | ->]]]]; (split; [discriminate | reflexivity]). }
  destruct v as [| |b|n|p|i|p|p|p|p]; cbn [storable box kind] in *; try reflexivity.
  - f_equal. destruct b; reflexivity.
  - destruct (pointer_word p TAG_STRING H) as (T & P & _); [apply T16; auto|].
    unfold is_index_string. rewrite T, P. reflexivity.
  - rewrite index_word by exact H.
    assert (0 <= i < 2 ^ 48) by (change (2 ^ 32) with 4294967296 in H; change (2 ^ 48) with 281474976710656; lia).
    unfold is_index_string. rewrite get_tag_word by (assumption || (split; [discriminate | reflexivity])). cbn [Z.eqb].
    change (TAG_INDEX_STRING =? TAG_INDEX_STRING) with true. cbv iota. f_equal.
    unfold get_index_string. change 0xffffffff with (Z.ones 32). rewrite Z.land_ones by lia.
    replace (TAG_INDEX_STRING * 2 ^ 48 + i) with (i + (TAG_INDEX_STRING * 2 ^ 16) * 2 ^ 32).
    + rewrite Z.mod_add by lia. apply Z.mod_small. exact H.
    + rewrite <- Z.mul_assoc. change (2 ^ 16 * 2 ^ 32) with (2 ^ 48). lia.
  - destruct (pointer_word p TAG_SYMBOL H) as (_ & P & _); [apply T16; auto|]. rewrite P. reflexivity.
  - destruct (pointer_word p TAG_BIG_INT H) as (_ & P & _); [apply T16; auto|]. rewrite P. reflexivity.
  - destruct (pointer_word p TAG_OBJECT H) as (_ & P & _); [apply T16; tauto|]. rewrite P. reflexivity.
  - destruct (pointer_word p TAG_GC_THING H) as (_ & P & _); [apply T16; tauto|]. rewrite P. reflexivity.
Qed.

Lemma box_inj : forall v1 v2, storable v1 -> storable v2 -> box v1 = box v2 -> v1 = v2.
Proof. intros v1 v2 H1 H2 E. rewrite <- (box_unbox v1 H1), <- (box_unbox v2 H2), E. reflexivity. Qed.

Lemma scan_spec : forall v, storable v -> gc_scan_value (box v) = referenced v.
Proof.
  intros v H.
  assert (T16 : forall t, t = TAG_STRING \/ t = TAG_SYMBOL \/ t = TAG_BIG_INT \/ t = TAG_OBJECT \/ t = TAG_GC_THING -> 0 <= t < 2 ^ 16).
  { intros t [-> | [-> | [-> | [-> | ->]]]]; (split; [discriminate | reflexivity]). }
  unfold gc_scan_value.
  destruct v as [| |b|n|p|i|p|p|p|p]; cbn [storable box referenced] in *; try reflexivity.
  - destruct b; reflexivity.
  - destruct (plain_tag _ H) as [R T]. unfold set_number. unfold reserved in T. unfold TAG_STRING, TAG_SYMBOL, TAG_BIG_INT, TAG_OBJECT, TAG_GC_THING.
    generalize dependent (get_tag n). intros t T.
    destruct (Z.leb_spec 0x7ff9 t); destruct (Z.leb_spec t 0x7ffe); destruct (Z.leb_spec 0xfff9 t); destruct (Z.leb_spec t 0xfffb);
      cbn [andb orb] in T; try discriminate T;
      repeat match goal with |- context [?a =? ?b] => destruct (Z.eqb_spec a b); [exfalso; lia|] end; reflexivity.
  - destruct (pointer_word p TAG_STRING H) as (T & P & _); [apply T16; auto|]. rewrite T, P. reflexivity.
  - rewrite index_word by exact H.
    assert (0 <= i < 2 ^ 48) by (change (2 ^ 32) with 4294967296 in H; change (2 ^ 48) with 281474976710656; lia).
    rewrite get_tag_word by (assumption || (split; [discriminate | reflexivity])). reflexivity.
  - destruct (pointer_word p TAG_SYMBOL H) as (T & P & _); [apply T16; auto|]. rewrite T, P. reflexivity.
  - destruct (pointer_word p TAG_BIG_INT H) as (T & P & _); [apply T16; auto|]. rewrite T, P. reflexivity.
  - destruct (pointer_word p TAG_OBJECT H) as (T & P & _); [apply T16; tauto|]. rewrite T, P. reflexivity.
  - destruct (pointer_word p TAG_GC_THING H) as (T & P & _); [apply T16; tauto|]. rewrite T, P. reflexivity.
Qed.

(** which patterns stored as a number are read back as something else *)
Lemma forged_iff : forall b, 0 <= b < 2 ^ 64 ->
  (get_type (set_number b) <> TNumber <->
   exists tag x, (0x7ff9 <= tag <= 0x7ffe \/ 0xfff9 <= tag <= 0xfffb) /\ 0 <= x < 2 ^ 48 /\ b = tag * 2 ^ 48 + x).
Proof.
  intros b H. unfold set_number. pose proof (get_type_number b) as G. rewrite get_tag_div in G by exact H.
  pose proof (Z.div_mod b (2 ^ 48) ltac:(lia)) as DM. pose proof (Z.mod_pos_bound b (2 ^ 48) ltac:(lia)) as MB.
  split.
  - intro N. exists (b / 2 ^ 48), (b mod 2 ^ 48). split; [|split; [exact MB | lia]].
    assert (R : reserved (b / 2 ^ 48) = true) by (destruct (reserved (b / 2 ^ 48)); [reflexivity | exfalso; apply N, G; reflexivity]).
    unfold reserved in R. apply orb_true_iff in R. destruct R as [R | R]; apply andb_true_iff in R; destruct R as [R1 R2];
      apply Z.leb_le in R1, R2; lia.
  - intros (tag & x & Ht & Hx & ->) N. apply G in N.
    rewrite Z.add_comm, Z.div_add in N by lia. rewrite Z.div_small in N by lia. cbn [Z.add] in N.
    unfold reserved in N. apply orb_false_iff in N. destruct N as [N1 N2].
    apply andb_false_iff in N1, N2. rewrite !Z.leb_gt in N1, N2. lia.
Qed.

(** native stack pointers *)
Lemma stack_pointer_spec : forall sp, 0 <= sp < 2 ^ 63 ->
  is_stack_pointer (stack_pointer_to_value sp) = true /\ to_stack_pointer (stack_pointer_to_value sp) = sp.
Proof.
  intros sp H. unfold stack_pointer_to_value.
  assert (E : Z.lor (Z.shiftl sp 1 mod 2 ^ 64) 1 = 2 * sp + 1).
  { rewrite Z.shiftl_mul_pow2 by lia. change (2 ^ 1) with 2. rewrite Z.mod_small by (p52; lia).
    rewrite Z.mul_comm. destruct sp; [reflexivity | reflexivity | lia]. }
  rewrite E. unfold is_stack_pointer, to_stack_pointer. split.
  - change 1 with (Z.ones 1) at 2. rewrite Z.land_ones by lia. change (2 ^ 1) with 2.
    rewrite Z.add_comm, Z.mul_comm, Z.mod_add by lia. reflexivity.
  - rewrite Z.shiftr_div_pow2 by lia. change (2 ^ 1) with 2. rewrite Z.add_comm, Z.mul_comm, Z.div_add by lia. reflexivity.
Qed.
