(** What the accesses and copies of ViewModel.v compute. *)
From Coq Require Import ZArith List Bool Lia.
Import ListNotations.
From Verif Require Import StrModel NumModel BufModel ViewModel ViewSpec ViewProofs ViewSafeProofs.
Local Open Scope Z_scope.

Lemma contents_some : forall s b d, inv s -> contents s b = Some d ->
  exists k h, nth_error (bufs s) b = Some (mkBuf (Some k) (Z.of_nat (length d))) /\
              nth_error (blocks s) k = Some (mkBlock (Some d) h).
Proof.
  intros s b d I H. unfold contents in H.
  destruct (nth_error (bufs s) b) as [[[k|] n]|] eqn:Hb; try discriminate.
  destruct (i_buf s I b k n Hb) as (d' & h & Hk & Hn). rewrite Hk in H. cbn in H. injection H as ->.
  exists k, h. subst n. auto.
Qed.
Lemma contents_live : forall s b k d h, nth_error (bufs s) b = Some (mkBuf (Some k) (Z.of_nat (length d))) ->
  nth_error (blocks s) k = Some (mkBlock (Some d) h) -> contents s b = Some d.
Proof. intros s b k d h Hb Hk. unfold contents. rewrite Hb, Hk. reflexivity. Qed.
Lemma contents_none : forall s b x, inv s -> nth_error (bufs s) b = Some x -> contents s b = None -> db x = None.
Proof.
  intros s b [[k|] n] I Hb H; auto. destruct (i_buf s I b k n Hb) as (d & h & Hk & _).
  unfold contents in H. rewrite Hb, Hk in H. discriminate.
Qed.

(** ** Byte strings *)
Lemma sub_sub : forall d p n q m, (q + m <= n)%nat -> sub (sub d p n) q m = sub d (p + q) m.
Proof.
  intros d p n q m H. unfold sub. rewrite skipn_firstn_comm, firstn_firstn, Nat.min_l by lia.
  f_equal. clear H. revert d. induction p as [|p IH]; intros d; cbn; auto.
  destruct d; cbn; auto. destruct q; auto.
Qed.
Lemma firstn_splice : forall d p bs, (p + length bs <= length d)%nat ->
  firstn (p + length bs) (splice d p bs) = firstn p d ++ bs.
Proof.
  intros d p bs H. unfold splice. rewrite app_assoc. rewrite firstn_app.
  rewrite firstn_all2 by (rewrite app_length, firstn_length; lia).
  rewrite app_length, firstn_length. replace (p + length bs - (Nat.min p (length d) + length bs))%nat with 0%nat by lia.
  cbn. apply app_nil_r.
Qed.
Lemma skipn_splice : forall d p bs q, (p + length bs <= q)%nat -> (q <= length d)%nat ->
  skipn q (splice d p bs) = skipn q d.
Proof.
  intros d p bs q H H2. unfold splice. rewrite app_assoc.
  rewrite skipn_app, skipn_all2 by (rewrite app_length, firstn_length; lia). cbn.
  rewrite app_length, firstn_length. rewrite Nat.min_l by lia.
  transitivity (skipn (q - (p + length bs)) (skipn (p + length bs) d)); auto.
  clear H2. revert q bs d H. induction p as [|p IH].
  - intros q bs d H. cbn. revert q d H. generalize (length bs) as n. clear.
    induction n; intros q d H; [cbn; rewrite Nat.sub_0_r; auto|].
    destruct d; [rewrite !skipn_nil; auto|]. cbn. destruct q; [lia|]. cbn. apply IHn. lia.
  - intros q bs d H. destruct q; [lia|]. destruct d; [rewrite !skipn_nil; auto|]. cbn. apply IH. lia.
Qed.
Lemma splice_splice : forall d p a b, (p + length a + length b <= length d)%nat ->
  splice (splice d p a) (p + length a) b = splice d p (a ++ b).
Proof.
  intros d p a b H. unfold splice at 1. rewrite firstn_splice by lia. rewrite skipn_splice by lia.
  unfold splice. rewrite app_length, <- !app_assoc, Nat.add_assoc. reflexivity.
Qed.
Lemma splice_nil : forall d p, splice d p [] = d.
Proof. intros. unfold splice. cbn. rewrite Nat.add_0_r. apply firstn_skipn. Qed.

Lemma upd_upd : forall A (l : list A) n a b, upd n a (upd n b l) = upd n a l.
Proof. induction l; intros [|n] x y; cbn; auto. rewrite IHl. auto. Qed.
Lemma upd_self : forall A (l : list A) n a, nth_error l n = Some a -> upd n a l = l.
Proof. induction l; intros [|n] x H; cbn in *; try discriminate; [congruence|]. rewrite IHl; auto. Qed.

Lemma chunks_concat : forall c n d, length d = (c * n)%nat -> List.concat (chunks c n d) = d.
Proof.
  induction c as [|c IH]; intros n d H; cbn.
  - destruct d; auto. discriminate.
  - rewrite IH by (rewrite skipn_length; nia). apply firstn_skipn.
Qed.

(** Same except for the contents of one block and the log. *)
Record only_block (k : nat) (d : list Z) (s s' : st) : Prop := {
  ob_bufs : bufs s' = bufs s;
  ob_views : views s' = views s;
  ob_overlap : overlap s' = overlap s;
  ob_stuck : stuck s' = stuck s;
  ob_blocks : exists h, nth_error (blocks s) k = Some h /\ blocks s' = upd k (mkBlock (Some d) (bshared h)) (blocks s) }.

Lemma only_contents : forall k d s s' b n, only_block k d s s' ->
  nth_error (bufs s) b = Some (mkBuf (Some k) n) -> contents s' b = Some d.
Proof.
  intros k d s s' b n [B V O S (h & Hk & E)] Hb. unfold contents. rewrite B, Hb, E, nth_upd, Nat.eqb_refl, Hk. reflexivity.
Qed.
Lemma only_other : forall k d s s' b b' n, only_block k d s s' ->
  nth_error (bufs s) b = Some (mkBuf (Some k) n) -> ~ shares s b b' -> contents s' b' = contents s b'.
Proof.
  intros k d s s' b b' n [B V O S (h & Hk & E)] Hb H. unfold contents. rewrite B, E.
  destruct (nth_error (bufs s) b') as [[[k'|] n']|] eqn:Hb'; auto.
  rewrite nth_upd. destruct (Nat.eqb_spec k' k) as [->|]; auto.
  exfalso. apply H. exists k, n, n'. auto.
Qed.
Lemma only_trans : forall k d d' s s1 s2, only_block k d s s1 -> only_block k d' s1 s2 -> only_block k d' s s2.
Proof.
  intros k d d' s s1 s2 [B V O S (h & Hk & E)] [B' V' O' S' (h' & Hk' & E')].
  split; try congruence. exists h. split; auto. rewrite E', E, upd_upd.
  rewrite E, nth_upd, Nat.eqb_refl, Hk in Hk'. injection Hk' as <-. reflexivity.
Qed.

Lemma read_only : forall s b k d h pos n o,
  nth_error (bufs s) b = Some (mkBuf (Some k) (Z.of_nat (length d))) ->
  nth_error (blocks s) k = Some (mkBlock (Some d) h) ->
  0 <= pos -> 0 <= n -> pos + n <= Z.of_nat (length d) ->
  exists s', mem_read b pos n o s = Ret (sub d (Z.to_nat pos) (Z.to_nat n)) s' /\
    bufs s' = bufs s /\ blocks s' = blocks s /\ views s' = views s /\ overlap s' = overlap s /\ stuck s' = stuck s.
Proof.
  intros s b k d h pos n o Hb Hk H1 H2 H3. rewrite (mem_read_eq s b k d h pos n o) by auto.
  eexists. split; [reflexivity|]. destruct o; auto 6.
Qed.
Lemma write_only : forall s b k d h pos bs o,
  nth_error (bufs s) b = Some (mkBuf (Some k) (Z.of_nat (length d))) ->
  nth_error (blocks s) k = Some (mkBlock (Some d) h) ->
  0 <= pos -> pos + Z.of_nat (length bs) <= Z.of_nat (length d) ->
  exists s', mem_write b pos bs o s = Ret tt s' /\ only_block k (splice d (Z.to_nat pos) bs) s s'.
Proof.
  intros s b k d h pos bs o Hb Hk H1 H3. rewrite (mem_write_eq s b k d h pos bs o) by auto.
  eexists. split; [reflexivity|]. destruct o; (split; [auto..|]); exists (mkBlock (Some d) h); auto.
Qed.

Section ENC.
Variable enc : etype -> bool -> Z -> list Z.
Variable dec : etype -> bool -> list Z -> Z.
Variable native : bool.
Hypothesis enc_size : sized enc.

Lemma get_value_eq : forall s b k d h pos t le o,
  nth_error (bufs s) b = Some (mkBuf (Some k) (Z.of_nat (length d))) ->
  nth_error (blocks s) k = Some (mkBlock (Some d) h) ->
  0 <= pos -> pos + size_of t <= Z.of_nat (length d) ->
  exists s', get_value_from_buffer dec b pos t le o s = Ret (dec t le (sub d (Z.to_nat pos) (esize t))) s' /\
    bufs s' = bufs s /\ blocks s' = blocks s /\ views s' = views s /\ overlap s' = overlap s /\ stuck s' = stuck s.
Proof.
  intros s b k d h pos t le o Hb Hk H1 H2. pose proof (size_pos t).
  destruct (read_only s b k d h pos (size_of t) o Hb Hk) as (s' & E & R); auto; try lia.
  exists s'. split; auto. unfold get_value_from_buffer, is_detached, the_buf, bind, ret, ViewModel.assert. rewrite Hb. cbn.
  rewrite E. unfold size_of. rewrite Nat2Z.id. reflexivity.
Qed.
Lemma set_value_eq : forall s b k d h pos t v le o,
  nth_error (bufs s) b = Some (mkBuf (Some k) (Z.of_nat (length d))) ->
  nth_error (blocks s) k = Some (mkBlock (Some d) h) ->
  0 <= pos -> pos + size_of t <= Z.of_nat (length d) ->
  exists s', set_value_in_buffer enc b pos t v le o s = Ret tt s' /\ only_block k (splice d (Z.to_nat pos) (enc t le v)) s s'.
Proof.
  intros s b k d h pos t v le o Hb Hk H1 H2. pose proof (size_pos t).
  destruct (write_only s b k d h pos (enc t le v) o Hb Hk) as (s' & E & R); auto.
  { rewrite enc_len; auto. }
  exists s'. split; auto. unfold set_value_in_buffer, is_detached, the_buf, bind, ret, ViewModel.assert. rewrite Hb. cbn.
  exact E.
Qed.

(** ** DataView *)
Lemma check_eq : forall s b x, nth_error (bufs s) b = Some x ->
  check_detached b s = if db x then Ret tt s else Thr s.
Proof.
  intros s b x H. unfold check_detached, is_detached, the_buf, bind, ret, throw_if. rewrite H.
  destruct (db x); reflexivity.
Qed.

Lemma view_get_spec : forall s vi v b le t z d, inv s ->
  nth_error (views s) vi = Some v -> vtype v = None -> rjs_to_index (Some b) = Some z -> contents s (vbuf v) = Some d ->
  (z + size_of t <= vbytes v ->
     exists s', get_view_value dec vi (Val (ret b)) le t s = Ret (dec t le (sub d (Z.to_nat (voff v + z)) (esize t))) s' /\
       forall b', contents s' b' = contents s b') /\
  (vbytes v < z + size_of t -> get_view_value dec vi (Val (ret b)) le t s = Thr s).
Proof.
  intros s vi v b le t z d I Hv Tv Hz Hd.
  destruct (contents_some _ _ _ I Hd) as (k & h & Hb & Hk).
  pose proof (index_range _ _ Hz) as Rz. pose proof (size_pos t) as Sz.
  pose proof (view_wf _ _ _ I Hv) as (W1 & W2 & W3 & _).
  destruct (view_buf _ _ _ I Hv) as (x & Hx & Q). rewrite Hb in Hx. injection Hx as <-. cbn in Q. specialize (Q ltac:(discriminate)).
  assert (E : get_view_value dec vi (Val (ret b)) le t s =
    (throw_if (vbytes v <? z + size_of t) ;; get_value_from_buffer dec (vbuf v) (z + voff v) t le (Some vi)) s).
  { unfold get_view_value. unfold bind at 1. unfold the_view. rewrite Hv, Tv.
    unfold to_index. unfold bind at 1 2. cbn [ret]. rewrite Hz. unfold ret. unfold bind at 1.
    rewrite (check_eq _ _ _ Hb). cbn [db]. rewrite !u64_id by lia. reflexivity. }
  rewrite E. split; intros H.
  - rewrite (proj2 (Z.ltb_ge _ _)) by lia.
    destruct (get_value_eq s (vbuf v) k d h (z + voff v) t le (Some vi) Hb Hk) as (s' & G & B & Bk & _); try lia.
    exists s'. split.
    + unfold bind, throw_if, ret. rewrite G. rewrite (Z.add_comm z). reflexivity.
    + intros b'. unfold contents. rewrite B, Bk. reflexivity.
  - rewrite (proj2 (Z.ltb_lt _ _)) by lia. reflexivity.
Qed.

Lemma view_set_spec : forall s vi v b w le t z d, inv s ->
  nth_error (views s) vi = Some v -> vtype v = None -> rjs_to_index (Some b) = Some z -> contents s (vbuf v) = Some d ->
  (z + size_of t <= vbytes v ->
     exists s', set_view_value enc vi (Val (ret b)) le t (Val (ret w)) s = Ret 0 s' /\
       contents s' (vbuf v) = Some (splice d (Z.to_nat (voff v + z)) (enc t le w)) /\
       forall b', ~ shares s (vbuf v) b' -> contents s' b' = contents s b') /\
  (vbytes v < z + size_of t -> set_view_value enc vi (Val (ret b)) le t (Val (ret w)) s = Thr s).
Proof.
  intros s vi v b w le t z d I Hv Tv Hz Hd.
  destruct (contents_some _ _ _ I Hd) as (k & h & Hb & Hk).
  pose proof (index_range _ _ Hz) as Rz. pose proof (size_pos t) as Sz.
  pose proof (view_wf _ _ _ I Hv) as (W1 & W2 & W3 & _).
  destruct (view_buf _ _ _ I Hv) as (x & Hx & Q). rewrite Hb in Hx. injection Hx as <-. cbn in Q. specialize (Q ltac:(discriminate)).
  assert (E : set_view_value enc vi (Val (ret b)) le t (Val (ret w)) s =
    (throw_if (vbytes v <? z + size_of t) ;; set_value_in_buffer enc (vbuf v) (z + voff v) t w le (Some vi) ;; ret 0) s).
  { unfold set_view_value. unfold bind at 1. unfold the_view. rewrite Hv, Tv.
    unfold to_index. unfold bind at 1 2. cbn [ret]. rewrite Hz. unfold ret at 1. unfold bind at 1. cbn [to_value ret].
    unfold bind at 1.
    rewrite (check_eq _ _ _ Hb). cbn [db]. rewrite !u64_id by lia. reflexivity. }
  rewrite E. split; intros H.
  - rewrite (proj2 (Z.ltb_ge _ _)) by lia.
    destruct (set_value_eq s (vbuf v) k d h (z + voff v) t w le (Some vi) Hb Hk) as (s' & G & O); try lia.
    exists s'. split; [|split].
    + unfold bind, throw_if, ret. rewrite G. reflexivity.
    + rewrite (Z.add_comm (voff v)). eapply only_contents; eauto.
    + intros b' N. eapply only_other; eauto.
  - rewrite (proj2 (Z.ltb_lt _ _)) by lia. reflexivity.
Qed.

(** ** Elements *)
Lemma bind_eq : forall A B (m : M A) (k : A -> M B) s a s', m s = Ret a s' -> bind m k s = k a s'.
Proof. intros A B m k s a s' H. unfold bind. rewrite H. reflexivity. Qed.
Lemma index_eq : forall s v n x, nth_error (bufs s) (vbuf v) = Some x ->
  is_valid_int_index v n s = Ret (if negb (if db x then true else false) || is_nan n || is_inf n || negb (dval n mod unit =? 0) || dsign n
                                     || (dval n / unit <? 0) || (vcount v <=? dval n / unit)
                                  then None else Some (dval n / unit)) s.
Proof.
  intros s v n x H. unfold is_valid_int_index, is_detached, the_buf, bind, ret. rewrite H.
  destruct (db x); cbn [negb orb]; auto.
  destruct (is_nan n); cbn [orb]; auto. destruct (is_inf n); cbn [orb]; auto.
  destruct (dval n mod unit =? 0); cbn [orb negb]; auto.
  destruct (dsign n); cbn [orb]; auto.
  destruct ((dval n / unit <? 0) || (vcount v <=? dval n / unit)); auto.
Qed.

Lemma the_array_eq : forall i v t s, nth_error (views s) i = Some v -> vtype v = Some t -> the_array i s = Ret (v, t) s.
Proof. intros i v t s H1 H2. unfold the_array, the_view, bind. rewrite H1, H2. reflexivity. Qed.

Lemma valid_index : forall s v t n (d : list Z) i, nth_error (bufs s) (vbuf v) = Some (mkBuf (Some i) (Z.of_nat (length d))) ->
  vtype v = Some t ->
  (exists z, denotes n z /\ 0 <= z < vcount v /\ is_valid_int_index v n s = Ret (Some z) s) \/
  ((forall z, denotes n z -> ~ 0 <= z < vcount v) /\ is_valid_int_index v n s = Ret None s).
Proof.
  intros s v t n d i Hb Ht. rewrite (index_eq s v n _ Hb). cbn [db negb orb].
  assert (U : unit <> 0) by discriminate.
  destruct (is_nan n) eqn:E1; cbn [orb].
  { right. split; auto. intros z (A & _). congruence. }
  destruct (is_inf n) eqn:E2; cbn [orb].
  { right. split; auto. intros z (_ & A & _). congruence. }
  destruct (Z.eqb_spec (dval n mod unit) 0) as [E3|E3]; cbn [orb negb].
  2: { right. split; auto. intros z (_ & _ & _ & A). rewrite A, Z.mod_mul in E3; auto. }
  destruct (dsign n) eqn:E4; cbn [orb].
  { right. split; auto. intros z (_ & _ & A & _). congruence. }
  assert (D : dval n = dval n / unit * unit).
  { rewrite (Z.div_mod (dval n) unit U) at 1. rewrite E3, Z.add_0_r. apply Z.mul_comm. }
  destruct (Z.ltb_spec (dval n / unit) 0) as [L|L]; cbn [orb].
  { right. split; auto. intros z (_ & _ & _ & A). rewrite A, Z.div_mul in L by auto. lia. }
  destruct (Z.leb_spec (vcount v) (dval n / unit)) as [L2|L2].
  { right. split; auto. intros z (_ & _ & _ & A). rewrite A, Z.div_mul in L2 by auto. lia. }
  left. exists (dval n / unit). repeat split; auto; lia.
Qed.
Lemma denotes_unique : forall n i j, denotes n i -> denotes n j -> i = j.
Proof.
  intros n i j (_ & _ & _ & A) (_ & _ & _ & B). rewrite A in B. apply Z.mul_reg_r in B; auto. discriminate.
Qed.

Lemma element_range : forall s vi v t z d, inv s -> nth_error (views s) vi = Some v -> vtype v = Some t ->
  contents s (vbuf v) = Some d -> 0 <= z < vcount v ->
  u64 (voff v + u64 (size_of t * z)) = voff v + size_of t * z /\ 0 <= voff v + size_of t * z /\
  voff v + size_of t * z + size_of t <= Z.of_nat (length d).
Proof.
  intros s vi v t z d I Hv Ht Hd R. destruct (contents_some _ _ _ I Hd) as (k & h & Hb & Hk).
  pose proof (view_wf _ _ _ I Hv) as W. destruct (count_range _ _ W Ht) as [C Cb]. destruct W as (W1 & W2 & W3 & _).
  destruct (view_buf _ _ _ I Hv) as (x & Hx & Q). rewrite Hb in Hx. injection Hx as <-. specialize (Q ltac:(discriminate)). cbn [blen] in Q.
  pose proof (size_pos t) as P.
  assert (A : 0 <= size_of t * z) by (apply Z.mul_nonneg_nonneg; lia).
  assert (B : size_of t * z + size_of t <= vbytes v).
  { rewrite Cb. replace (size_of t * z + size_of t) with (size_of t * (z + 1)) by ring. apply Z.mul_le_mono_nonneg_l; lia. }
  rewrite (u64_id (size_of t * z)) by lia. rewrite u64_id by lia. lia.
Qed.

Lemma element_get_spec : forall s vi v t n d, inv s -> nth_error (views s) vi = Some v -> vtype v = Some t ->
  contents s (vbuf v) = Some d ->
  (forall i, denotes n i -> 0 <= i < vcount v ->
     exists s', element_get dec native vi n s = Ret (Some (dec t native (sub d (element_start v t i) (esize t)))) s' /\
       forall b', contents s' b' = contents s b') /\
  ((forall i, denotes n i -> ~ 0 <= i < vcount v) -> element_get dec native vi n s = Ret None s).
Proof.
  intros s vi v t n d I Hv Ht Hd. destruct (contents_some _ _ _ I Hd) as (k & h & Hb & Hk).
  unfold element_get. rewrite (bind_eq _ _ _ _ _ _ _ (the_array_eq vi v t s Hv Ht)).
  destruct (valid_index s v t n d k Hb Ht) as [(z & Dz & Rz & E)|[Nz E]]; rewrite (bind_eq _ _ _ _ _ _ _ E).
  - split.
    + intros i Di Ri. rewrite (denotes_unique _ _ _ Di Dz) in *.
      destruct (element_range s vi v t z d I Hv Ht Hd Rz) as (U & P1 & P2). rewrite U.
      destruct (get_value_eq s (vbuf v) k d h (voff v + size_of t * z) t native (Some vi) Hb Hk P1 P2) as (s' & G & B & Bk & _).
      exists s'. split; [rewrite (bind_eq _ _ _ _ _ _ _ G); reflexivity|]. intros b'. unfold contents. rewrite B, Bk. reflexivity.
    + intros N. destruct (N z Dz Rz).
  - split; [|reflexivity]. intros i Di Ri. destruct (Nz i Di Ri).
Qed.
Lemma element_set_spec : forall s vi v t n w d, inv s -> nth_error (views s) vi = Some v -> vtype v = Some t ->
  contents s (vbuf v) = Some d ->
  (forall i, denotes n i -> 0 <= i < vcount v ->
     exists s', element_set enc native vi n (Val (ret w)) s = Ret tt s' /\
       contents s' (vbuf v) = Some (splice d (element_start v t i) (enc t native w)) /\
       forall b', ~ shares s (vbuf v) b' -> contents s' b' = contents s b') /\
  ((forall i, denotes n i -> ~ 0 <= i < vcount v) -> element_set enc native vi n (Val (ret w)) s = Ret tt s).
Proof.
  intros s vi v t n w d I Hv Ht Hd. destruct (contents_some _ _ _ I Hd) as (k & h & Hb & Hk).
  unfold element_set. rewrite (bind_eq _ _ _ _ _ _ _ (the_array_eq vi v t s Hv Ht)).
  rewrite (bind_eq _ _ (to_value (Val (ret w))) _ s w s eq_refl).
  destruct (valid_index s v t n d k Hb Ht) as [(z & Dz & Rz & E)|[Nz E]]; rewrite (bind_eq _ _ _ _ _ _ _ E).
  - split.
    + intros i Di Ri. rewrite (denotes_unique _ _ _ Di Dz) in *.
      destruct (element_range s vi v t z d I Hv Ht Hd Rz) as (U & P1 & P2). rewrite U.
      destruct (set_value_eq s (vbuf v) k d h (voff v + size_of t * z) t w native (Some vi) Hb Hk P1 P2) as (s' & G & O).
      exists s'. split; [exact G|]. split; [eapply only_contents; eauto|]. intros b' N. eapply only_other; eauto.
    + intros N. destruct (N z Dz Rz).
  - split; [|reflexivity]. intros i Di Ri. destruct (Nz i Di Ri).
Qed.

(** ** copyWithin *)
Lemma relative_eq : forall r len s, inv s -> 0 <= len < 2 ^ 53 -> relative r len s = Ret (clamped r len) s.
Proof. intros. apply rel_clamped; auto. Qed.
Lemma s64_eq : forall z s, - 2 ^ 63 <= z < 2 ^ 63 -> s64 z s = Ret z s.
Proof.
  intros z s R. unfold s64.
  rewrite (proj2 (Z.leb_le _ _)) by lia. rewrite (proj2 (Z.ltb_lt _ _)) by lia. reflexivity.
Qed.
Lemma valid_eq : forall s vi v t x k, nth_error (views s) vi = Some v -> vtype v = Some t ->
  nth_error (bufs s) (vbuf v) = Some x -> db x = Some k -> valid_typed_array vi s = Ret (v, t) s.
Proof.
  intros s vi v t x k Hv Ht Hx Hk. unfold valid_typed_array, the_array, the_view, bind. rewrite Hv, Ht. unfold ret.
  rewrite (check_eq _ _ _ Hx), Hk. reflexivity.
Qed.

Definition to_pos := element_start.

Lemma copy_within_spec : forall s vi v t a0 a1 a2 r0 r1 r2 s1 s2 s3, inv s -> inv s1 -> inv s2 -> inv s3 ->
  ext s s3 ->
  nth_error (views s) vi = Some v -> vtype v = Some t -> contents s (vbuf v) <> None ->
  to_integer a0 s = Ret r0 s1 -> to_integer a1 s1 = Ret r1 s2 -> to_end a2 (vcount v) s2 = Ret r2 s3 ->
  let len := vcount v in
  let to := clamped r0 len in let from := clamped r1 len in let final := clamped r2 len in
  let count := Z.min (final - from) (len - to) in
  (count <= 0 -> copy_within vi a0 a1 a2 s = Ret tt s3) /\
  (0 < count -> contents s3 (vbuf v) = None -> copy_within vi a0 a1 a2 s = Thr s3) /\
  (0 < count -> forall d, contents s3 (vbuf v) = Some d ->
     exists s', copy_within vi a0 a1 a2 s = Ret tt s' /\
       contents s' (vbuf v) = Some (splice d (to_pos v t to) (sub d (to_pos v t from) (Z.to_nat (size_of t * count)))) /\
       (forall b', ~ shares s3 (vbuf v) b' -> contents s' b' = contents s3 b') /\
       overlap s' = overlap s3 /\ stuck s' = stuck s3).
Proof.
  intros s vi v t a0 a1 a2 r0 r1 r2 s1 s2 s3 I I1 I2 I3 X Hv Ht Hc E0 E1 E2 len to from final count.
  pose proof (view_wf _ _ _ I Hv) as W. destruct (count_range _ _ W Ht) as [Cr Cb].
  destruct W as (W1 & W2 & W3 & W4 & _). pose proof (size_pos t) as Sz.
  destruct (view_buf _ _ _ I Hv) as (x & Hx & _).
  destruct (db x) as [k0|] eqn:Ek0.
  2: { exfalso. apply Hc. unfold contents. rewrite Hx. destruct x as [[]]; [discriminate|reflexivity]. }
  pose proof (ext_view _ _ _ _ X Hv) as Hv3. destruct (view_buf _ _ _ I3 Hv3) as (x3 & Hx3 & Q).
  destruct (rel_clamped r0 len s1 I1 Cr) as [_ R0]. destruct (rel_clamped r1 len s2 I2 Cr) as [_ R1].
  destruct (rel_clamped r2 len s3 I3 Cr) as [_ R2]. fold to in R0. fold from in R1. fold final in R2.
  assert (Head : copy_within vi a0 a1 a2 s = when (0 <? count) (
    check_detached (vbuf v) ;;
    let! p := s64 (size_of t * from) in
    let! from_byte_idx := s64 (voff v + p) in
    let! q := s64 (size_of t * to) in
    let! to_byte_idx := s64 (voff v + q) in
    let! count_bytes := s64 (size_of t * count) in
    let! bs := mem_read (vbuf v) from_byte_idx count_bytes (Some vi) in
    mem_write (vbuf v) to_byte_idx bs (Some vi)) s3).
  { unfold copy_within. rewrite (bind_eq _ _ _ _ _ _ _ (valid_eq _ _ _ _ _ _ Hv Ht Hx Ek0)).
    rewrite (bind_eq _ _ _ _ _ _ _ E0). rewrite (bind_eq _ _ _ _ _ _ _ (relative_eq r0 _ s1 I1 Cr)).
    rewrite (bind_eq _ _ _ _ _ _ _ E1). rewrite (bind_eq _ _ _ _ _ _ _ (relative_eq r1 _ s2 I2 Cr)).
    rewrite (bind_eq _ _ _ _ _ _ _ E2). rewrite (bind_eq _ _ _ _ _ _ _ (relative_eq r2 _ s3 I3 Cr)).
    fold len to from final.
    rewrite (bind_eq _ _ _ _ _ _ _ (s64_eq (final - from) s3 ltac:(lia))).
    rewrite (bind_eq _ _ _ _ _ _ _ (s64_eq (len - to) s3 ltac:(lia))). reflexivity. }
  rewrite Head. split; [|split].
  - intros C. rewrite (proj2 (Z.ltb_ge _ _)) by lia. reflexivity.
  - intros C N. rewrite (proj2 (Z.ltb_lt _ _)) by lia. cbn [when]. unfold bind at 1.
    rewrite (check_eq _ _ _ Hx3), (contents_none _ _ _ I3 Hx3 N). reflexivity.
  - intros C d Hd. rewrite (proj2 (Z.ltb_lt _ _)) by lia. cbn [when].
    destruct (contents_some _ _ _ I3 Hd) as (k & h & Hb & Hk). rewrite Hb in Hx3. injection Hx3 as <-.
    cbn in Q. specialize (Q ltac:(discriminate)).
    assert (Hcnt : count <= final - from /\ count <= len - to) by (unfold count; lia).
    assert (Hcheck : check_detached (vbuf v) s3 = Ret tt s3) by (rewrite (check_eq _ _ _ Hb); reflexivity).
    rewrite (bind_eq _ _ _ _ _ _ _ Hcheck).
    unfold len in *.
    rewrite (bind_eq _ _ _ _ _ _ _ (s64_eq (size_of t * from) s3 ltac:(nia))).
    rewrite (bind_eq _ _ _ _ _ _ _ (s64_eq (voff v + size_of t * from) s3 ltac:(nia))).
    rewrite (bind_eq _ _ _ _ _ _ _ (s64_eq (size_of t * to) s3 ltac:(nia))).
    rewrite (bind_eq _ _ _ _ _ _ _ (s64_eq (voff v + size_of t * to) s3 ltac:(nia))).
    rewrite (bind_eq _ _ _ _ _ _ _ (s64_eq (size_of t * count) s3 ltac:(nia))).
    assert (P0 : 0 <= size_of t * from) by (apply Z.mul_nonneg_nonneg; lia).
    assert (P1 : 0 <= size_of t * count) by (apply Z.mul_nonneg_nonneg; lia).
    assert (P2 : size_of t * from + size_of t * count <= vbytes v).
    { rewrite Cb, <- Z.mul_add_distr_l. apply Z.mul_le_mono_nonneg_l; lia. }
    assert (P3 : 0 <= size_of t * to) by (apply Z.mul_nonneg_nonneg; lia).
    assert (P4 : size_of t * to + size_of t * count <= vbytes v).
    { rewrite Cb, <- Z.mul_add_distr_l. apply Z.mul_le_mono_nonneg_l; lia. }
    cbn [blen] in Q.
    destruct (read_only s3 (vbuf v) k d h (voff v + size_of t * from) (size_of t * count) (Some vi) Hb Hk) as (s4 & E4 & B4 & K4 & V4 & O4 & S4); try lia.
    rewrite (bind_eq _ _ _ _ _ _ _ E4).
    set (bs := sub d (Z.to_nat (voff v + size_of t * from)) (Z.to_nat (size_of t * count))) in *.
    assert (Lb : Z.of_nat (length bs) = size_of t * count).
    { unfold bs. rewrite sub_length by lia. lia. }
    destruct (write_only s4 (vbuf v) k d h (voff v + size_of t * to) bs (Some vi)) as (s5 & E5 & OB);
      [rewrite B4; exact Hb|rewrite K4; exact Hk|lia|lia|].
    rewrite E5. exists s5.
    assert (OB3 : only_block k (splice d (Z.to_nat (voff v + size_of t * to)) bs) s3 s5).
    { destruct OB as [B V O S (hh & Hh & E)]. split; try congruence. exists hh. rewrite <- K4. auto. }
    split; auto. split; [eapply only_contents; eauto|]. split; [intros; eapply only_other; eauto|].
    destruct OB3; auto.
Qed.

(** ** set *)
Definition converted (stp ttp : etype) (bs : list Z) : list Z := enc ttp native (dec stp native bs).

Lemma sub_all : forall d n, length d = n -> sub d 0 n = d.
Proof. intros d n H. unfold sub. cbn. apply firstn_all2. lia. Qed.
Lemma chunks_step : forall c n d p, (p + S c * n <= length d)%nat ->
  chunks (S c) n (sub d p (S c * n)) = sub d p n :: chunks c n (sub d (p + n) (c * n)).
Proof.
  intros c n d p H. cbn [chunks]. f_equal.
  - unfold sub. rewrite firstn_firstn, Nat.min_l by lia. reflexivity.
  - f_equal. unfold sub. rewrite skipn_firstn_comm. f_equal; [lia|].
    clear H. revert d. induction p; intros d; cbn; auto. destruct d; [rewrite skipn_nil; auto|]. apply IHp.
Qed.
Lemma concat_len : forall stp ttp l, length (List.concat (map (converted stp ttp) l)) = (length l * esize ttp)%nat.
Proof.
  intros stp ttp l. induction l; cbn; auto. rewrite app_length, IHl. unfold converted. rewrite enc_size. reflexivity.
Qed.
Lemma chunks_len : forall c n d, length (chunks c n d) = c.
Proof. induction c; intros; cbn; auto. Qed.

Lemma convert_spec : forall n s sb ks ds hs stp si so tb kt dt ht ttp ti to_,
  nth_error (bufs s) sb = Some (mkBuf (Some ks) (Z.of_nat (length ds))) ->
  nth_error (blocks s) ks = Some (mkBlock (Some ds) hs) ->
  nth_error (bufs s) tb = Some (mkBuf (Some kt) (Z.of_nat (length dt))) ->
  nth_error (blocks s) kt = Some (mkBlock (Some dt) ht) ->
  ks <> kt -> Z.of_nat (length ds) < 2 ^ 53 -> Z.of_nat (length dt) < 2 ^ 53 ->
  0 <= si -> si + Z.of_nat n * size_of stp <= Z.of_nat (length ds) ->
  0 <= ti -> ti + Z.of_nat n * size_of ttp <= Z.of_nat (length dt) ->
  exists s', convert_elements enc dec native n sb stp si so tb ttp ti to_ s = Ret tt s' /\
    only_block kt (splice dt (Z.to_nat ti) (List.concat (map (converted stp ttp)
       (chunks n (esize stp) (sub ds (Z.to_nat si) (n * esize stp)))))) s s'.
Proof.
  induction n as [|n IH]; intros s sb ks ds hs stp si so tb kt dt ht ttp ti to_ Hsb Hks Htb Hkt N Bs Bt S1 S2 T1 T2; cbn [convert_elements].
  - exists s. split; [reflexivity|]. cbn. rewrite splice_nil. split; auto.
    exists (mkBlock (Some dt) ht). split; auto. cbn. symmetry. apply upd_self. auto.
  - pose proof (size_pos stp) as P1. pose proof (size_pos ttp) as P2.
    assert (Q1 : Z.of_nat (esize stp) = size_of stp) by reflexivity.
    assert (Q2 : Z.of_nat (esize ttp) = size_of ttp) by reflexivity.
    rewrite Nat2Z.inj_succ in *.
    destruct (get_value_eq s sb ks ds hs si stp native so Hsb Hks) as (s1 & E1 & B1 & K1 & V1 & O1 & X1); try nia.
    rewrite (bind_eq _ _ _ _ _ _ _ E1).
    set (x := dec stp native (sub ds (Z.to_nat si) (esize stp))) in *.
    destruct (set_value_eq s1 tb kt dt ht ti ttp x native to_) as (s2 & E2 & OB); try congruence; try nia.
    rewrite (bind_eq _ _ _ _ _ _ _ E2).
    assert (OB' : only_block kt (splice dt (Z.to_nat ti) (enc ttp native x)) s s2).
    { destruct OB as [B V O S (hh & Hh & E)]. split; try congruence. exists hh. rewrite <- K1. auto. }
    pose proof OB' as [B2 V2 O2 X2 (hh & Hh & K2)].
    rewrite Hkt in Hh. injection Hh as <-. cbn in K2.
    assert (Le : length (enc ttp native x) = esize ttp) by apply enc_size.
    assert (Ld : length (splice dt (Z.to_nat ti) (enc ttp native x)) = length dt) by (apply splice_length; nia).
    rewrite !u64_id by nia.
    destruct (IH s2 sb ks ds hs stp (si + size_of stp) so tb kt (splice dt (Z.to_nat ti) (enc ttp native x)) ht ttp (ti + size_of ttp) to_)
      as (s3 & E3 & OB3); try congruence; try nia.
    + rewrite K2, nth_upd. rewrite (proj2 (Nat.eqb_neq _ _)) by auto. auto.
    + rewrite K2, nth_upd, Nat.eqb_refl, Hkt. reflexivity.
    + exists s3. split; auto. eapply only_trans; [exact OB'|].
      rewrite chunks_step by nia. cbn [map List.concat].
      replace (Z.to_nat (si + size_of stp)) with (Z.to_nat si + esize stp)%nat in OB3 by nia.
      replace (Z.to_nat (ti + size_of ttp)) with (Z.to_nat ti + length (enc ttp native x))%nat in OB3 by nia.
      rewrite splice_splice in OB3.
      * exact OB3.
      * rewrite concat_len, chunks_len. nia.
Qed.

Definition set_bytes := stored_bytes enc dec native.

Lemma nth_app_old : forall A (l m : list A) n x, nth_error l n = Some x -> nth_error (l ++ m) n = Some x.
Proof. intros A l m n x H. rewrite nth_error_app1; auto. apply nth_error_Some. congruence. Qed.
Lemma upd_app_old : forall A (l m : list A) n a, (n < length l)%nat -> upd n a (l ++ m) = upd n a l ++ m.
Proof. induction l; intros m [|n] x H; cbn in *; try lia; auto. rewrite IHl by lia. auto. Qed.

Lemma set_typed_spec : forall s ti si tv sv ttp stp a o s1 dt ds, inv s -> inv s1 -> ext s s1 ->
  nth_error (views s) ti = Some tv -> vtype tv = Some ttp ->
  nth_error (views s) si = Some sv -> vtype sv = Some stp ->
  to_integer a s = Ret (Fin o) s1 -> 0 <= o ->
  contents s1 (vbuf tv) = Some dt -> contents s1 (vbuf sv) = Some ds ->
  content_is_big_int ttp = content_is_big_int stp ->
  (vcount tv < vcount sv + o -> set_typed enc dec native ti si a true s = Thr s1) /\
  (vcount sv + o <= vcount tv ->
   exists s', set_typed enc dec native ti si a true s = Ret tt s' /\
     contents s' (vbuf tv) = Some (splice dt (to_pos tv ttp o)
        (set_bytes stp ttp (Z.to_nat (vcount sv)) (sub ds (Z.to_nat (voff sv)) (Z.to_nat (vbytes sv))))) /\
     (forall b', (b' < length (bufs s1))%nat -> ~ shares s1 (vbuf tv) b' -> contents s' b' = contents s1 b') /\
     overlap s' = overlap s1 /\ stuck s' = stuck s1).
Proof.
  intros s ti si tv sv ttp stp a o s1 dt ds I I1 X Ht Tt Hs Ts Ea Ho Hdt Hds Big.
  pose proof (ext_view _ _ _ _ X Ht) as Ht1. pose proof (ext_view _ _ _ _ X Hs) as Hs1.
  destruct (contents_some _ _ _ I1 Hdt) as (kt & ht & Hbt & Hkt).
  destruct (contents_some _ _ _ I1 Hds) as (ks & hs & Hbs & Hks).
  destruct (view_buf _ _ _ I1 Ht1) as (xt & Hxt & Qt). rewrite Hbt in Hxt. injection Hxt as <-. cbn in Qt. specialize (Qt ltac:(discriminate)).
  destruct (view_buf _ _ _ I1 Hs1) as (xs & Hxs & Qs). rewrite Hbs in Hxs. injection Hxs as <-. cbn in Qs. specialize (Qs ltac:(discriminate)).
  pose proof (view_wf _ _ _ I1 Ht1) as Wt. destruct (count_range _ _ Wt Tt) as [Ct Cbt]. destruct Wt as (T1 & T2 & T3 & T4 & _).
  pose proof (view_wf _ _ _ I1 Hs1) as Ws. destruct (count_range _ _ Ws Ts) as [Cs Cbs]. destruct Ws as (S1 & S2 & S3 & S4 & _).
  pose proof (size_pos ttp) as Zt. pose proof (size_pos stp) as Zs.
  pose proof (buf_range _ _ _ I1 Hbt) as Rt. pose proof (buf_range _ _ _ I1 Hbs) as Rs. cbn [blen] in Rt, Rs.
  assert (Q1 : Z.of_nat (esize stp) = size_of stp) by reflexivity.
  assert (Q2 : Z.of_nat (esize ttp) = size_of ttp) by reflexivity.
  assert (Arr : forall i v t s0, nth_error (views s0) i = Some v -> vtype v = Some t -> the_array i s0 = Ret (v, t) s0).
  { intros i v t s0 H1 H2. unfold the_array, the_view, bind. rewrite H1, H2. reflexivity. }
  assert (Blk : forall b k n s0, nth_error (bufs s0) b = Some (mkBuf (Some k) n) -> block_of b s0 = Ret k s0).
  { intros b k n s0 H. unfold block_of, the_buf, bind. rewrite H. reflexivity. }
  assert (Head : set_typed enc dec native ti si a true s = set_from_typed_array enc dec native ti si (Fin o) true s1).
  { unfold set_typed, ta_set. rewrite (bind_eq _ _ _ _ _ _ _ (Arr ti tv ttp s Ht Tt)).
    assert (E : (let! o0 := to_integer a in throw_if (negative o0);; ret o0) s = Ret (Fin o) s1).
    { rewrite (bind_eq _ _ _ _ _ _ _ Ea). cbn [negative]. rewrite (proj2 (Z.ltb_ge _ _)) by lia. reflexivity. }
    rewrite (bind_eq _ _ _ _ _ _ _ E). reflexivity. }
  rewrite Head. unfold set_from_typed_array.
  rewrite (bind_eq _ _ _ _ _ _ _ (Arr ti tv ttp s1 Ht1 Tt)).
  assert (C1 : check_detached (vbuf tv) s1 = Ret tt s1) by (rewrite (check_eq _ _ _ Hbt); reflexivity).
  rewrite (bind_eq _ _ _ _ _ _ _ C1).
  rewrite (bind_eq _ _ _ _ _ _ _ (Arr si sv stp s1 Hs1 Ts)).
  assert (C2 : check_detached (vbuf sv) s1 = Ret tt s1) by (rewrite (check_eq _ _ _ Hbs); reflexivity).
  rewrite (bind_eq _ _ _ _ _ _ _ C2).
  rewrite offset_ok by auto.
  split; intros L.
  { rewrite (proj2 (Z.ltb_lt _ _)) by lia. reflexivity. }
  rewrite (proj2 (Z.ltb_ge _ _)) by lia. rewrite Big, Bool.eqb_reflx. cbn [negb].
  rewrite (bind_eq _ _ (throw_if false) _ s1 tt s1 eq_refl). rewrite (bind_eq _ _ (throw_if false) _ s1 tt s1 eq_refl).
  rewrite (bind_eq _ _ _ _ _ _ _ (Blk _ _ _ _ Hbt)). rewrite (bind_eq _ _ _ _ _ _ _ (Blk _ _ _ _ Hbs)).
  set (srcb := sub ds (Z.to_nat (voff sv)) (Z.to_nat (vbytes sv))).
  assert (Lsrc : length srcb = Z.to_nat (vbytes sv)) by (apply sub_length; lia).
  (* the source of the copy: a block other than the target's *)
  assert (Src : exists sb sx so s2 k2 d2 h2 bl2 bf2 w2,
     (if Nat.eqb ks kt
      then let! nab := clone_array_buffer (vbuf sv) (voff sv) (vbytes sv) true (Some si) in ret (nab, 0, None)
      else ret (vbuf sv, voff sv, Some si)) s1 = Ret (sb, sx, so) s2 /\
     blocks s2 = blocks s1 ++ bl2 /\ bufs s2 = bufs s1 ++ bf2 /\ views s2 = views s1 ++ w2 /\ overlap s2 = overlap s1 /\ stuck s2 = stuck s1 /\
     nth_error (bufs s2) sb = Some (mkBuf (Some k2) (Z.of_nat (length d2))) /\ nth_error (blocks s2) k2 = Some (mkBlock (Some d2) h2) /\
     k2 <> kt /\ Z.of_nat (length d2) < 2 ^ 53 /\ 0 <= sx /\ sx + vbytes sv <= Z.of_nat (length d2) /\
     sub d2 (Z.to_nat sx) (Z.to_nat (vbytes sv)) = srcb).
  { destruct (Nat.eqb_spec ks kt) as [Ek|Nk].
    - unfold clone_array_buffer, allocate_array_buffer, data_block_new. rewrite to_s64_id by lia.
      rewrite (proj2 (Z.ltb_ge _ _)) by lia. rewrite (proj2 (Z.leb_gt _ _)) by lia. cbn [orb negb].
      set (blk := mkBlock (Some (repeat 0 (Z.to_nat (vbytes sv)))) false).
      set (nb := mkBuf (Some (length (blocks s1))) (vbytes sv)).
      set (s2 := set_bufs (bufs s1 ++ [nb]) (set_blocks (blocks s1 ++ [blk]) s1)).
      assert (A1 : (no_user_code ;; let! k := (fun s0 : st => Ret (length (blocks s0)) (set_blocks (blocks s0 ++ [blk]) s0)) in
          fun s0 : st => Ret (length (bufs s0)) (set_bufs (bufs s0 ++ [mkBuf (Some k) (vbytes sv)]) s0)) s1 = Ret (length (bufs s1)) s2) by reflexivity.
      assert (Hb2 : nth_error (bufs s2) (vbuf sv) = Some (mkBuf (Some ks) (Z.of_nat (length ds)))) by (apply nth_snoc; auto).
      assert (Hk2 : nth_error (blocks s2) ks = Some (mkBlock (Some ds) hs)) by (apply nth_snoc; auto).
      assert (A2 : check_detached (vbuf sv) s2 = Ret tt s2) by (rewrite (check_eq _ _ _ Hb2); reflexivity).
      destruct (read_only s2 (vbuf sv) ks ds hs (voff sv) (vbytes sv) (Some si) Hb2 Hk2) as (s3 & A3 & B3 & K3 & V3 & O3 & X3); try lia.
      fold srcb in A3.
      assert (Hb3 : nth_error (bufs s3) (length (bufs s1)) = Some (mkBuf (Some (length (blocks s1))) (Z.of_nat (length (repeat 0 (Z.to_nat (vbytes sv))))))).
      { rewrite B3. unfold s2. cbn [bufs set_bufs]. rewrite nth_last. unfold nb. rewrite repeat_length, Z2Nat.id by lia. reflexivity. }
      assert (Hk3 : nth_error (blocks s3) (length (blocks s1)) = Some (mkBlock (Some (repeat 0 (Z.to_nat (vbytes sv)))) false)).
      { rewrite K3. unfold s2. cbn [blocks set_bufs set_blocks]. apply nth_last. }
      destruct (write_only s3 _ _ _ _ 0 srcb None Hb3 Hk3) as (s4 & A4 & [B4 V4 O4 X4 (h4 & Hh4 & K4)]); try lia.
      { rewrite Lsrc, repeat_length. lia. }
      exists (length (bufs s1)), 0, None, s4, (length (blocks s1)), srcb, false, [mkBlock (Some srcb) false], [nb], [].
      rewrite Hk3 in Hh4. injection Hh4 as <-. cbn [bshared] in K4.
      assert (Sp : splice (repeat 0 (Z.to_nat (vbytes sv))) (Z.to_nat 0) srcb = srcb).
      { unfold splice. cbn [Z.to_nat firstn app Nat.add]. rewrite skipn_all2 by (rewrite repeat_length; lia). apply app_nil_r. }
      rewrite Sp in K4.
      assert (Upd : forall A (l : list A) x y, upd (length l) x (l ++ [y]) = l ++ [x]).
      { intros A l x y. induction l; cbn; congruence. }
      split.
      + rewrite (bind_eq _ _ _ _ s1 (length (bufs s1)) s4); [reflexivity|].
        rewrite (bind_eq _ _ _ _ _ _ _ A1). rewrite (bind_eq _ _ _ _ _ _ _ A2). rewrite (bind_eq _ _ _ _ _ _ _ A3).
        rewrite (bind_eq _ _ _ _ _ _ _ A4). reflexivity.
      + assert (Kb : blocks s4 = blocks s1 ++ [mkBlock (Some srcb) false]).
        { rewrite K4, K3. unfold s2. cbn [blocks set_bufs set_blocks]. apply Upd. }
        assert (Bb : bufs s4 = bufs s1 ++ [nb]) by (rewrite B4, B3; reflexivity).
        split; auto. split; auto. split; [rewrite V4, V3; cbn; rewrite app_nil_r; auto|]. split; [rewrite O4, O3; reflexivity|].
        split; [rewrite X4, X3; reflexivity|].
        split; [rewrite Bb, nth_last; unfold nb; rewrite Lsrc, Z2Nat.id by lia; reflexivity|].
        split; [rewrite Kb; apply nth_last|].
        split. { intros E. assert (kt < length (blocks s1))%nat by (apply nth_error_Some; congruence). lia. }
        split; [lia|]. split; [lia|]. split; [lia|]. apply sub_all. auto.
    - exists (vbuf sv), (voff sv), (Some si), s1, ks, ds, hs, [], [], []. rewrite !app_nil_r.
      repeat split; auto; lia. }
  destruct Src as (sb & sx & so & s2 & k2 & d2 & h2 & bl2 & bf2 & w2 & E2 & K2 & B2 & V2 & O2 & X2 & Hb2 & Hk2 & Nk & R2 & P1 & P2 & Eq).
  rewrite (bind_eq _ _ _ _ _ _ _ E2).
  assert (U : u64 (u64 (u64 o * size_of ttp) + voff tv) = voff tv + size_of ttp * o).
  { rewrite (u64_id o) by nia. rewrite (u64_id (o * size_of ttp)) by nia. rewrite u64_id by nia. lia. }
  rewrite U.
  assert (U2 : u64 (voff tv + size_of ttp * o + u64 (size_of ttp * vcount sv)) = voff tv + size_of ttp * o + size_of ttp * vcount sv).
  { rewrite (u64_id (size_of ttp * vcount sv)) by nia. apply u64_id. nia. }
  rewrite U2.
  assert (Hbt2 : nth_error (bufs s2) (vbuf tv) = Some (mkBuf (Some kt) (Z.of_nat (length dt)))) by (rewrite B2; apply nth_app_old; auto).
  assert (Hkt2 : nth_error (blocks s2) kt = Some (mkBlock (Some dt) ht)) by (rewrite K2; apply nth_app_old; auto).
  set (data := set_bytes stp ttp (Z.to_nat (vcount sv)) srcb).
  assert (Fin : exists s', (if etype_eqb stp ttp
     then lock_both sb (vbuf tv) ;;
          memcpy (vbuf tv) (voff tv + size_of ttp * o) (Some ti) sb sx so
            (u64 (voff tv + size_of ttp * o + size_of ttp * vcount sv - (voff tv + size_of ttp * o)))
     else convert_elements enc dec native (Z.to_nat ((voff tv + size_of ttp * o + size_of ttp * vcount sv - (voff tv + size_of ttp * o) + size_of ttp - 1) / size_of ttp))
            sb stp sx so (vbuf tv) ttp (voff tv + size_of ttp * o) (Some ti)) s2 = Ret tt s' /\
     only_block kt (splice dt (to_pos tv ttp o) data) s2 s').
  { unfold data, set_bytes, stored_bytes. destruct (etype_eqb_spec stp ttp) as [Et|Nt].
    - subst stp. rewrite map_id.
      rewrite chunks_concat by (rewrite Lsrc; nia).
      assert (Lk : lock_both sb (vbuf tv) s2 = Ret tt (flag false false s2)).
      { unfold lock_both. rewrite (bind_eq _ _ _ _ _ _ _ (Blk _ _ _ _ Hb2)). rewrite (bind_eq _ _ _ _ _ _ _ (Blk _ _ _ _ Hbt2)).
        rewrite (proj2 (Nat.eqb_neq _ _)) by auto. reflexivity. }
      rewrite (bind_eq _ _ _ _ _ _ _ Lk).
      assert (F0 : flag false false s2 = s2) by (destruct s2; unfold flag; cbn; rewrite !orb_false_r; reflexivity).
      rewrite F0.
      replace (voff tv + size_of ttp * o + size_of ttp * vcount sv - (voff tv + size_of ttp * o)) with (vbytes sv) by lia.
      rewrite u64_id by lia.
      unfold memcpy. rewrite (bind_eq _ _ _ _ _ _ _ (Blk _ _ _ _ Hbt2)). rewrite (bind_eq _ _ _ _ _ _ _ (Blk _ _ _ _ Hb2)).
      destruct (read_only s2 sb k2 d2 h2 sx (vbytes sv) so Hb2 Hk2) as (s3 & A3 & B3 & K3 & V3 & O3 & X3); try lia.
      rewrite Eq in A3. rewrite (bind_eq _ _ _ _ _ _ _ A3).
      assert (Pw : size_of ttp * o + vbytes sv <= vbytes tv).
      { rewrite Cbs, Cbt, <- Z.mul_add_distr_l. apply Z.mul_le_mono_nonneg_l; lia. }
      assert (Po : 0 <= size_of ttp * o) by (apply Z.mul_nonneg_nonneg; lia).
      destruct (write_only s3 (vbuf tv) kt dt ht (voff tv + size_of ttp * o) srcb (Some ti)) as (s4 & A4 & OB);
        [rewrite B3; exact Hbt2|rewrite K3; exact Hkt2|lia|rewrite Lsrc; lia|].
      rewrite (bind_eq _ _ _ _ _ _ _ A4). rewrite (proj2 (Nat.eqb_neq kt k2)) by auto. cbn [andb].
      eexists. split; [reflexivity|].
      destruct OB as [B V O S (hh & Hh & E)]. split; cbn [flag bufs views blocks overlap stuck]; rewrite ?orb_false_r; try congruence.
      exists hh. rewrite <- K3. auto.
    - rewrite loop_count by lia.
      destruct (convert_spec (Z.to_nat (vcount sv)) s2 sb k2 d2 h2 stp sx so (vbuf tv) kt dt ht ttp (voff tv + size_of ttp * o) (Some ti))
        as (s3 & A3 & OB); auto; rewrite ?Z2Nat.id by lia; try lia.
      { assert (vcount sv * size_of ttp + size_of ttp * o <= vbytes tv).
        { rewrite Cbt, (Z.mul_comm (vcount sv)), <- Z.mul_add_distr_l. apply Z.mul_le_mono_nonneg_l; lia. }
        lia. }
      exists s3. split; auto.
      replace (Z.to_nat (vcount sv) * esize stp)%nat with (Z.to_nat (vbytes sv)) in OB.
      2: { apply Nat2Z.inj. rewrite Nat2Z.inj_mul, Q1, !Z2Nat.id by lia. lia. }
      rewrite Eq in OB. exact OB. }
  destruct Fin as (s' & Es & OB). exists s'. split; [exact Es|]. split; [eapply only_contents; eauto|].
  split; [|destruct OB; split; congruence].
  intros b' Lb' Nsh. destruct OB as [B V O S (hh & Hh & E)]. unfold contents. rewrite B, E, B2, K2.
  rewrite nth_error_app1 by auto. destruct (nth_error (bufs s1) b') as [[[k'|] n']|] eqn:Hb'; auto.
  rewrite nth_upd. destruct (Nat.eqb_spec k' kt) as [->|Nk'].
  - exfalso. apply Nsh. exists kt, (Z.of_nat (length dt)), n'. auto.
  - destruct (i_buf s1 I1 b' k' n' Hb') as (d' & h' & Hd' & _).
    rewrite (nth_app_old _ _ bl2 _ _ Hd'), Hd'. reflexivity.
Qed.

(** ** slice *)
Lemma block_of_eq : forall b k n s, nth_error (bufs s) b = Some (mkBuf (Some k) n) -> block_of b s = Ret k s.
Proof. intros b k n s H. unfold block_of, the_buf, bind. rewrite H. reflexivity. Qed.

Lemma slice_spec : forall s vi v t a0 a1 a2 r0 r1 s1 s2 s3 n ni w dt ds, inv s -> inv s1 -> inv s2 -> inv s3 ->
  ext s s2 -> ext s2 s3 ->
  nth_error (views s) vi = Some v -> vtype v = Some t -> contents s (vbuf v) <> None ->
  to_integer a0 s = Ret r0 s1 -> to_end a1 (vcount v) s1 = Ret r1 s2 -> user a2 s2 = Ret n s3 -> ni = Z.to_nat n ->
  nth_error (views s3) ni = Some w -> vtype w = Some t ->
  contents s3 (vbuf w) = Some dt -> contents s3 (vbuf v) = Some ds ->
  let from := clamped r0 (vcount v) in
  let count := clamped r1 (vcount v) - from in
  0 < count -> count <= vcount w ->
  let bytes := size_of t * count in
  let same := if Nat.eqb (vbuf w) (vbuf v) then true
              else match nth_error (bufs s3) (vbuf w), nth_error (bufs s3) (vbuf v) with
                   | Some (mkBuf (Some k) _), Some (mkBuf (Some k') _) => Nat.eqb k k'
                   | _, _ => false end in
  exists s', slice enc dec native vi a0 a1 a2 s = Ret (Z.of_nat ni) s' /\
    contents s' (vbuf w) = Some (splice dt (Z.to_nat (voff w)) (sub ds (to_pos v t from) (Z.to_nat bytes))) /\
    (forall b', ~ shares s3 (vbuf w) b' -> contents s' b' = contents s3 b') /\
    overlap s' = overlap s3 || (same && (voff w <? voff v + size_of t * from + bytes) && (voff v + size_of t * from <? voff w + bytes)) /\
    stuck s' = stuck s3 || (same && match nth_error (bufs s3) (vbuf v) with
                                    | Some (mkBuf (Some k) _) => match nth_error (blocks s3) k with Some x => bshared x | None => false end
                                    | _ => false end).
Proof.
  intros s vi v t a0 a1 a2 r0 r1 s1 s2 s3 n ni w dt ds I I1 I2 I3 X X3 Hv Ht Hc E0 E1 E2 En Hw Tw Hdt Hds from count Cp Cw bytes same.
  pose proof (view_wf _ _ _ I Hv) as W. destruct (count_range _ _ W Ht) as [Cr Cb].
  destruct W as (W1 & W2 & W3 & W4 & _). pose proof (size_pos t) as Sz.
  destruct (view_buf _ _ _ I Hv) as (x & Hx & _).
  destruct (db x) as [k0|] eqn:Ek0.
  2: { exfalso. apply Hc. unfold contents. rewrite Hx. destruct x as [[]]; [discriminate|reflexivity]. }
  pose proof (ext_view _ _ _ _ X Hv) as Hv2. pose proof (ext_view _ _ _ _ X3 Hv2) as Hv3.
  destruct (rel_clamped r0 (vcount v) s1 I1 Cr) as [_ R0]. fold from in R0.
  destruct (rel_clamped r1 (vcount v) s2 I2 Cr) as [_ R1].
  destruct (contents_some _ _ _ I3 Hdt) as (kt & ht & Hbt & Hkt).
  destruct (contents_some _ _ _ I3 Hds) as (ks & hs & Hbs & Hks).
  destruct (view_buf _ _ _ I3 Hw) as (xt & Hxt & Qt). rewrite Hbt in Hxt. injection Hxt as <-. specialize (Qt ltac:(discriminate)). cbn [blen] in Qt.
  destruct (view_buf _ _ _ I3 Hv3) as (xs & Hxs & Qs). rewrite Hbs in Hxs. injection Hxs as <-. specialize (Qs ltac:(discriminate)). cbn [blen] in Qs.
  pose proof (view_wf _ _ _ I3 Hw) as Ww. destruct (count_range _ _ Ww Tw) as [Ct Cbt]. destruct Ww as (T1 & T2 & T3 & _).
  assert (Sp : species_create vi a2 (Z.max 0 count) s2 = Ret ni s3).
  { unfold species_create. rewrite (bind_eq _ _ _ _ _ _ _ (the_array_eq vi v t s2 Hv2 Ht)).
    rewrite (bind_eq _ _ _ _ _ _ _ E2). rewrite <- En, Hw.
    rewrite (bind_eq _ _ _ _ _ _ _ (valid_eq _ _ _ _ _ _ Hw Tw Hbt eq_refl)).
    rewrite (proj2 (Z.ltb_ge _ _)) by lia. rewrite Bool.eqb_reflx. reflexivity. }
  unfold slice. rewrite (bind_eq _ _ _ _ _ _ _ (valid_eq _ _ _ _ _ _ Hv Ht Hx Ek0)).
  rewrite (bind_eq _ _ _ _ _ _ _ E0). rewrite (bind_eq _ _ _ _ _ _ _ (relative_eq r0 _ s1 I1 Cr)).
  rewrite (bind_eq _ _ _ _ _ _ _ E1). rewrite (bind_eq _ _ _ _ _ _ _ (relative_eq r1 _ s2 I2 Cr)).
  fold from. fold count.
  rewrite (bind_eq _ _ _ _ _ _ _ (s64_eq count s2 ltac:(unfold count in *; lia))).
  rewrite (bind_eq _ _ _ _ _ _ _ Sp).
  rewrite (proj2 (Z.ltb_lt 0 (Z.max 0 count))) by lia. cbn [when].
  replace (Z.max 0 count) with count by lia.
  assert (P0 : 0 <= size_of t * from) by (apply Z.mul_nonneg_nonneg; lia).
  assert (P1 : 0 <= size_of t * count) by (apply Z.mul_nonneg_nonneg; lia).
  assert (P2 : size_of t * from + size_of t * count <= vbytes v).
  { rewrite Cb, <- Z.mul_add_distr_l. apply Z.mul_le_mono_nonneg_l; unfold count; lia. }
  assert (P4 : size_of t * count <= vbytes w).
  { rewrite Cbt. apply Z.mul_le_mono_nonneg_l; lia. }
  assert (Hcheck : check_detached (vbuf v) s3 = Ret tt s3) by (rewrite (check_eq _ _ _ Hbs); reflexivity).
  assert (Sm : same = Nat.eqb kt ks).
  { unfold same. rewrite Hbt, Hbs. destruct (Nat.eqb_spec (vbuf w) (vbuf v)) as [Eb|]; auto.
    rewrite Eb, Hbs in Hbt. injection Hbt as Ek _. rewrite Ek, Nat.eqb_refl. reflexivity. }
  assert (Lk : lock_both (vbuf v) (vbuf w) s3 = Ret tt (flag false (Nat.eqb ks kt && hs) s3)).
  { unfold lock_both. rewrite (bind_eq _ _ _ _ _ _ _ (block_of_eq _ _ _ _ Hbs)), (bind_eq _ _ _ _ _ _ _ (block_of_eq _ _ _ _ Hbt)).
    rewrite Hks. reflexivity. }
  set (s4 := flag false (Nat.eqb ks kt && hs) s3) in *.
  destruct (read_only s4 (vbuf v) ks ds hs (voff v + size_of t * from) (size_of t * count) (Some vi) Hbs Hks)
    as (s5 & E5 & B5 & K5 & V5 & O5 & S5); [lia|lia|lia|].
  set (bs := sub ds (Z.to_nat (voff v + size_of t * from)) (Z.to_nat (size_of t * count))) in *.
  assert (Lb : Z.of_nat (length bs) = size_of t * count).
  { unfold bs. rewrite sub_length by lia. lia. }
  destruct (write_only s5 (vbuf w) kt dt ht (voff w) bs (Some ni)) as (s6 & E6 & OB);
    [rewrite B5; exact Hbt|rewrite K5; exact Hkt|lia|lia|].
  assert (Mc : memcpy (vbuf w) (voff w) (Some ni) (vbuf v) (voff v + size_of t * from) (Some vi) (size_of t * count) s4 =
    Ret tt (flag (Nat.eqb kt ks && (0 <? size_of t * count) && (voff w <? voff v + size_of t * from + size_of t * count)
                  && (voff v + size_of t * from <? voff w + size_of t * count)) false s6)).
  { unfold memcpy. rewrite (bind_eq _ _ _ _ s4 kt s4 (block_of_eq _ _ _ s4 Hbt)), (bind_eq _ _ _ _ s4 ks s4 (block_of_eq _ _ _ s4 Hbs)).
    rewrite (bind_eq _ _ _ _ _ _ _ E5), (bind_eq _ _ _ _ _ _ _ E6). reflexivity. }
  assert (Bytes : 0 < size_of t * count) by (apply Z.mul_pos_pos; lia).
  rewrite (proj2 (Z.ltb_lt _ _) Bytes), andb_true_r in Mc.
  eexists. split; [|split; [|split; [|split]]].
  - etransitivity; [eapply bind_eq|reflexivity]. rewrite (bind_eq _ _ _ _ _ _ _ Hcheck).
    rewrite (bind_eq _ _ _ _ _ _ _ (the_array_eq ni w t s3 Hw Tw)).
    destruct (etype_eqb_spec t t) as [_|N]; [|congruence].
    rewrite (bind_eq _ _ _ _ _ _ _ Lk).
    rewrite (u64_id (from * size_of t)) by lia. rewrite (u64_id (count * size_of t)) by lia.
    rewrite (Z.mul_comm from), (Z.mul_comm count), u64_id by lia.
    exact Mc.
  - unfold contents, flag. cbn [bufs blocks]. change (contents s6 (vbuf w) = Some (splice dt (Z.to_nat (voff w)) bs)).
    eapply only_contents; [exact OB|]. rewrite B5. exact Hbt.
  - intros b' N. transitivity (contents s6 b'); [reflexivity|].
    rewrite (only_other _ _ _ _ (vbuf w) b' (Z.of_nat (length dt)) OB).
    + unfold contents. rewrite B5, K5. reflexivity.
    + rewrite B5. exact Hbt.
    + unfold shares in *. rewrite B5. exact N.
  - destruct OB as [_ _ O _ _]. cbn [flag overlap]. rewrite O, O5. unfold s4. cbn [flag overlap]. rewrite orb_false_r, Sm. reflexivity.
  - destruct OB as [_ _ _ S _]. cbn [flag stuck]. rewrite S, S5. unfold s4. cbn [flag stuck]. rewrite orb_false_r, Sm, Hbs, Hks.
    rewrite Nat.eqb_sym. reflexivity.
Qed.
End ENC.
