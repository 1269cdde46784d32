(** Value level facts and the linearizability proof for AtomModel.v. *)
From Coq Require Import ZArith List Bool Lia Arith.
Import ListNotations.
From Verif Require Import BufModel BufSpec BufProofs AtomModel AtomSpec.
Local Open Scope Z_scope.

Lemma modulus_bits : forall t, modulus t = 2 ^ bits t.
Proof. destruct t; reflexivity. Qed.
Lemma signed_same : forall t, is_signed t = signed t.
Proof. destruct t; reflexivity. Qed.
Lemma half : forall t, 2 ^ bits t = 2 * 2 ^ (bits t - 1) /\ 0 < 2 ^ (bits t - 1).
Proof. destruct t; cbv; split; reflexivity. Qed.

Lemma wrap_range : forall t v, in_range t (wrap t v).
Proof.
  intros t v. unfold in_range, wrap. destruct (half t) as [H P].
  destruct (signed t); [|apply Z.mod_pos_bound; lia].
  pose proof (Z.mod_pos_bound (v + 2 ^ (bits t - 1)) (2 ^ bits t)). lia.
Qed.
Lemma wrap_word : forall t v, to_word t (wrap t v) = to_word t v.
Proof.
  intros t v. unfold to_word, wrap. rewrite modulus_bits. destruct (half t) as [H P].
  destruct (signed t); [|apply Z.mod_mod; lia].
  rewrite Zminus_mod_idemp_l. f_equal. lia.
Qed.
Lemma of_word_wrap : forall t v, of_word t (to_word t v) = wrap t v.
Proof.
  intros t v. unfold of_word, to_word, wrap. rewrite signed_same, modulus_bits. destruct (half t) as [H P].
  destruct (signed t); [|reflexivity]. cbn [andb].
  set (h := 2 ^ (bits t - 1)) in *. rewrite H.
  pose proof (Z.mod_pos_bound v (2 * h)).
  pose proof (Z.div_mod v (2 * h)).
  destruct (2 * h <=? 2 * (v mod (2 * h))) eqn:E.
  - apply Z.leb_le in E.
    rewrite <- (Z.mod_unique (v + h) (2 * h) (v / (2 * h) + 1) (v mod (2 * h) - h)); lia.
  - apply Z.leb_gt in E.
    rewrite <- (Z.mod_unique (v + h) (2 * h) (v / (2 * h)) (v mod (2 * h) + h)); lia.
Qed.
Lemma wrap_id : forall t v, in_range t v -> wrap t v = v.
Proof.
  intros t v R. unfold in_range, wrap in *. destruct (half t) as [H P].
  destruct (signed t); rewrite Z.mod_small; lia.
Qed.
Lemma word_inj : forall t x y, to_word t x = to_word t y -> wrap t x = wrap t y.
Proof. intros. rewrite <- !of_word_wrap. congruence. Qed.
Lemma to_word_idem : forall t v, to_word t (to_word t v) = to_word t v.
Proof. intros. unfold to_word. apply Z.mod_mod. rewrite modulus_bits. destruct (half t). lia. Qed.
Lemma word_range : forall t v, 0 <= to_word t v < modulus t.
Proof. intros. apply Z.mod_pos_bound. rewrite modulus_bits. destruct (half t). lia. Qed.

(** Bitwise operations and reduction modulo a power of two. *)
Lemma land_mod : forall n x y, 0 <= n -> Z.land (x mod 2 ^ n) (y mod 2 ^ n) = Z.land x y mod 2 ^ n.
Proof.
  intros n x y N. apply Z.bits_inj'. intros k K. rewrite Z.land_spec.
  destruct (Z_lt_le_dec k n).
  - rewrite !Z.mod_pow2_bits_low, Z.land_spec by lia. reflexivity.
  - rewrite !Z.mod_pow2_bits_high by lia. reflexivity.
Qed.
Lemma lor_mod : forall n x y, 0 <= n -> Z.lor (x mod 2 ^ n) (y mod 2 ^ n) = Z.lor x y mod 2 ^ n.
Proof.
  intros n x y N. apply Z.bits_inj'. intros k K. rewrite Z.lor_spec.
  destruct (Z_lt_le_dec k n).
  - rewrite !Z.mod_pow2_bits_low, Z.lor_spec by lia. reflexivity.
  - rewrite !Z.mod_pow2_bits_high by lia. reflexivity.
Qed.
Lemma lxor_mod : forall n x y, 0 <= n -> Z.lxor (x mod 2 ^ n) (y mod 2 ^ n) = Z.lxor x y mod 2 ^ n.
Proof.
  intros n x y N. apply Z.bits_inj'. intros k K. rewrite Z.lxor_spec.
  destruct (Z_lt_le_dec k n).
  - rewrite !Z.mod_pow2_bits_low, Z.lxor_spec by lia. reflexivity.
  - rewrite !Z.mod_pow2_bits_high by lia. reflexivity.
Qed.
Lemma bits_pos : forall t, 0 < bits t.
Proof. destruct t; reflexivity. Qed.

Lemma rmw_spec : forall t k x v,
  rmw_word t k (to_word t x) (to_word t v) = to_word t (snd (seq_op t (ORmw k v) x)).
Proof.
  intros t k x v. pose proof (bits_pos t). destruct (half t) as [H2 P].
  unfold rmw_word. destruct k; cbn [seq_op snd]; rewrite wrap_word; unfold to_word; rewrite modulus_bits.
  - symmetry. apply Zplus_mod.
  - symmetry. apply Zminus_mod.
  - apply land_mod. lia.
  - apply lor_mod. lia.
  - apply lxor_mod. lia.
  - reflexivity.
Qed.
Lemma cas_spec : forall t e x, in_range t x -> (to_word t x =? to_word t e) = (x =? wrap t e).
Proof.
  intros t e x R. destruct (Z.eqb_spec x (wrap t e)) as [E|E].
  - subst x. rewrite wrap_word. apply Z.eqb_refl.
  - apply Z.eqb_neq. intro W. apply E. apply word_inj in W. rewrite (wrap_id t x R) in W. exact W.
Qed.
Lemma seq_range : forall t o x, in_range t x -> in_range t (snd (seq_op t o x)).
Proof.
  intros t o x R. destruct o as [|v|k v|e r]; cbn.
  - exact R.
  - apply wrap_range.
  - destruct k; apply wrap_range.
  - destruct (x =? wrap t e); [apply wrap_range|exact R].
Qed.

(** The bytes of an element with value [x]. *)
Definition enc (t : etype) (le : bool) (x : Z) : list Z := bytes le (esize t) (to_word t x).
Lemma enc_word : forall t le x, word le (enc t le x) = to_word t x.
Proof. intros. unfold enc. rewrite word_bytes. apply to_word_idem. Qed.
Lemma enc_length : forall t le x, length (enc t le x) = esize t.
Proof. intros. unfold enc. rewrite bytes_in_order, in_order_length. apply le_bytes_length. Qed.
Lemma enc_wrap : forall t le v, enc t le (wrap t v) = enc t le v.
Proof. intros. unfold enc. now rewrite wrap_word. Qed.
Lemma enc_of : forall t le w, bytes le (esize t) (to_word t w) = enc t le w.
Proof. reflexivity. Qed.
Lemma base256_little : forall bs, base256 bs = little bs.
Proof. induction bs as [|b l IH]; [reflexivity|]. cbn [base256]. rewrite IH. reflexivity. Qed.
Lemma element_enc : forall t le bs, length bs = esize t -> Forall is_byte bs ->
  bs = enc t le (element t le bs).
Proof.
  intros t le bs L B. unfold element. rewrite enc_wrap. unfold enc.
  rewrite base256_little. change (if le then bs else rev bs) with (in_order le bs).
  rewrite <- word_little by exact B.
  assert (R : 0 <= word le bs < modulus t).
  { rewrite word_little by exact B.
    pose proof (little_range (in_order le bs) (in_order_bytes le bs B)) as Q.
    rewrite in_order_length, L in Q. exact Q. }
  unfold to_word. rewrite Z.mod_small by exact R. rewrite <- L. symmetry. apply bytes_word. exact B.
Qed.
Lemma element_range : forall t le bs, in_range t (element t le bs).
Proof. intros. apply wrap_range. Qed.
Lemma enc_element : forall t le x, in_range t x -> element t le (enc t le x) = x.
Proof.
  intros t le x R. rewrite <- (wrap_id t x R) at 2. unfold element. apply word_inj.
  rewrite base256_little. change (if le then enc t le x else rev (enc t le x)) with (in_order le (enc t le x)).
  assert (B : Forall is_byte (enc t le x)).
  { unfold enc. rewrite bytes_in_order. apply in_order_bytes, le_bytes_byte. }
  rewrite <- word_little by exact B. rewrite enc_word. apply to_word_idem.
Qed.
