(** Every operation of ViewModel.v keeps the invariant and stays in bounds. *)
From Coq Require Import ZArith List Bool Lia.
Import ListNotations.
From Verif Require Import StrModel NumModel BufModel ViewModel ViewSpec ViewProofs.
Local Open Scope Z_scope.

Lemma ext_live : forall s s' b x y, ext s s' -> nth_error (bufs s) b = Some x -> nth_error (bufs s') b = Some y ->
  db y <> None -> y = x.
Proof.
  intros s s' b x y [_ B] H H' L. destruct (B b x H) as (x' & Hx & [->|E]); [congruence|].
  rewrite H' in Hx. injection Hx as ->. tauto.
Qed.
Lemma buf_range : forall s b x, inv s -> nth_error (bufs s) b = Some x -> 0 <= blen x < 2 ^ 53.
Proof. intros s b x I. apply (i_small s I). Qed.
Lemma view_wf : forall s i v, inv s -> nth_error (views s) i = Some v -> wf_view v.
Proof. intros s i v I H. apply (i_view s I i v H). Qed.
Lemma view_buf : forall s i v, inv s -> nth_error (views s) i = Some v ->
  exists x, nth_error (bufs s) (vbuf v) = Some x /\ (db x <> None -> voff v + vbytes v <= blen x).
Proof. intros s i v I H. apply (i_view s I i v H). Qed.
Lemma count_range : forall v t, wf_view v -> vtype v = Some t -> 0 <= vcount v < 2 ^ 53 /\ vbytes v = size_of t * vcount v.
Proof.
  intros v t (H1 & H2 & H3 & H4 & H5) E. rewrite E in H5. pose proof (size_pos t). split; auto. nia.
Qed.

(** ** Detach and alias *)
Lemma refs_one : forall k bs i j x y, refs k bs = 1%nat -> nth_error bs i = Some x -> nth_error bs j = Some y ->
  db x = Some k -> db y = Some k -> i = j.
Proof.
  intros k bs. unfold refs. induction bs as [|b bs IH]; intros i j x y R Hi Hj X Y.
  - destruct i; discriminate.
  - assert (Z0 : forall n z, nth_error bs n = Some z -> db z = Some k ->
        filter (fun b => match db b with Some j => Nat.eqb j k | None => false end) bs <> []).
    { intros n z Hz Ez N. apply nth_error_In in Hz.
      assert (In z (filter (fun b => match db b with Some j => Nat.eqb j k | None => false end) bs)).
      { apply filter_In. split; auto. rewrite Ez. apply Nat.eqb_refl. }
      rewrite N in H. destruct H. }
    cbn in R. destruct i, j; cbn in Hi, Hj; auto.
    + injection Hi as ->. rewrite X, Nat.eqb_refl in R. cbn in R. exfalso. apply (Z0 j y); auto.
      destruct (filter _ bs); auto. discriminate.
    + injection Hj as ->. rewrite Y, Nat.eqb_refl in R. cbn in R. exfalso. apply (Z0 i x); auto.
      destruct (filter _ bs); auto. discriminate.
    + f_equal. eapply IH; eauto. destruct (match db b with Some j0 => Nat.eqb j0 k | None => false end); auto.
      cbn in R. exfalso. apply (Z0 i x); auto. destruct (filter _ bs); auto. discriminate.
Qed.

Lemma safe_detach : forall b x s, inv s -> nth_error (bufs s) b = Some x -> safe (detach_array_buffer b) s (fun _ _ => True).
Proof.
  intros b x s I H. unfold detach_array_buffer. eapply safe_bind; [apply safe_the_buf; eauto|].
  intros a s1 _ _ [-> ->]. destruct (db x) as [k|] eqn:E; [|apply safe_ret; auto].
  assert (Small : forall c y, nth_error (upd b (mkBuf None 0) (bufs s)) c = Some y -> 0 <= blen y < 2 ^ 53).
  { intros c y. rewrite nth_upd. destruct (Nat.eqb_spec c b) as [->|N].
    - rewrite H. intros [= <-]. cbn. lia.
    - apply (i_small s I). }
  assert (View : forall i v, nth_error (views s) i = Some v -> wf_view v /\
     exists y, nth_error (upd b (mkBuf None 0) (bufs s)) (vbuf v) = Some y /\ (db y <> None -> voff v + vbytes v <= blen y)).
  { intros i v Hv. destruct (i_view s I i v Hv) as (W & y & Hy & Q). split; auto. rewrite nth_upd.
    destruct (Nat.eqb_spec (vbuf v) b) as [E2|N].
    - rewrite H. eexists. split; eauto. cbn. tauto.
    - eauto. }
  assert (Ext : forall bl lg o k', ext s (mkSt bl (upd b (mkBuf None 0) (bufs s)) (views s) lg o k')).
  { intros. split; cbn; auto. intros c y Hc. rewrite nth_upd. destruct (Nat.eqb_spec c b) as [->|N]; [|eauto].
    rewrite H. eauto. }
  unfold safe, bind, data_block_unref. cbn [Nat.eqb]. destruct (Nat.eqb_spec (refs k (bufs s)) 1) as [R|R].
  - split; [|split; auto; apply Ext].
    split; cbn; auto.
    + intros c j n Hc. rewrite nth_upd in Hc. destruct (Nat.eqb_spec c b) as [->|N]; [rewrite H in Hc; discriminate|].
      destruct (i_buf s I c j n Hc) as (d & h & Hj & Hn). rewrite nth_upd.
      destruct (Nat.eqb_spec j k) as [->|N2]; [|eauto].
      exfalso. apply N. eapply refs_one; eauto.
    + exact (i_log s I).
  - split; [|split; auto; apply Ext].
    split; cbn; auto.
    + intros c j n Hc. rewrite nth_upd in Hc. destruct (Nat.eqb_spec c b) as [->|N]; [rewrite H in Hc; discriminate|].
      eapply i_buf; eauto.
    + exact (i_log s I).
Qed.

Lemma safe_alias : forall b x s, inv s -> nth_error (bufs s) b = Some x -> safe (alias_array_buffer b) s (fun _ _ => True).
Proof.
  intros b [k n] s I H. unfold alias_array_buffer. eapply safe_bind; [apply safe_the_buf; eauto|].
  intros a s1 _ _ [-> ->]. cbn. destruct k as [k|]; [|apply safe_throw; auto].
  destruct (i_buf s I b k n H) as (d & h & Hk & Hd). pose proof (i_small s I b _ H) as R. cbn in R.
  unfold safe. split; [|split; auto].
  - eapply inv_new_buf; eauto.
  - apply keeps_ext; [apply keeps_snoc|reflexivity].
Qed.

Section ENC.
Variable enc : etype -> bool -> Z -> list Z.
Variable dec : etype -> bool -> list Z -> Z.
Variable native : bool.
Hypothesis enc_size : sized enc.

Lemma enc_len : forall t le v, Z.of_nat (length (enc t le v)) = size_of t.
Proof. intros. unfold size_of. rewrite enc_size. reflexivity. Qed.

Definition same (s s' : st) : Prop := bufs s' = bufs s /\ views s' = views s.

Lemma safe_get_value : forall s b k m pos t le o, inv s -> live s b k m ->
  0 <= pos -> pos + size_of t <= m -> covers s o b pos (size_of t) ->
  safe (get_value_from_buffer dec b pos t le o) s (fun _ s' => same s s').
Proof.
  intros s b k m pos t le o I L H1 H2 C. unfold get_value_from_buffer.
  eapply safe_bind; [apply safe_is_detached; [auto|exact L]|]. cbn. intros a s1 _ _ [-> ->]. cbn.
  eapply safe_bind; [apply (safe_ret _ tt s (fun _ s' => s' = s)); auto|]. intros _ s1 _ _ ->.
  pose proof (size_pos t).
  eapply safe_bind; [eapply safe_mem_read; eauto; lia|].
  intros bs s2 I2 _ (_ & B & V & _). apply safe_ret; auto. split; auto.
Qed.
Lemma safe_set_value : forall s b k m pos t v le o, inv s -> live s b k m ->
  0 <= pos -> pos + size_of t <= m -> covers s o b pos (size_of t) ->
  safe (set_value_in_buffer enc b pos t v le o) s (fun _ s' => same s s').
Proof.
  intros s b k m pos t v le o I L H1 H2 C. unfold set_value_in_buffer.
  eapply safe_bind; [apply safe_is_detached; [auto|exact L]|]. cbn. intros a s1 _ _ [-> ->]. cbn.
  eapply safe_bind; [apply (safe_ret _ tt s (fun _ s' => s' = s)); auto|]. intros _ s1 _ _ ->.
  eapply safe_mem_write; eauto; rewrite enc_len; auto.
Qed.

(** ** DataView *)
Lemma safe_data_view : forall b x off len proto s, inv s -> nth_error (bufs s) b = Some x ->
  ok_arg off -> ok_arg len -> ok_arg proto ->
  safe (data_view_constructor b off len proto) s (fun _ _ => True).
Proof.
  intros b x off len proto s I Hb O1 O2 O3. unfold data_view_constructor.
  eapply safe_bind; [apply safe_to_index; auto|]. intros offset s1 I1 E1 R1. cbn beta in R1.
  destruct (ext_has _ _ _ _ E1 Hb) as (x1 & Hx1).
  eapply safe_bind; [apply safe_check; eauto|]. intros _ s1' _ _ [-> (k & Hk)].
  eapply safe_bind; [apply safe_the_buf; eauto|]. intros ab s1' _ _ [-> ->].
  pose proof (buf_range _ _ _ I1 Hx1) as Rx.
  eapply safe_bind; [apply safe_throw_if; auto|]. intros _ s1' _ _ [-> T1]. apply Z.ltb_ge in T1.
  eapply safe_bind with (Q1 := fun l s' => 0 <= l /\ offset + l <= blen x1).
  { destruct len as [|c].
    - apply safe_ret; auto. rewrite u64_id by lia. rewrite to_s64_id by lia. lia.
    - eapply safe_bind; [apply safe_to_index; auto|]. intros l s2 I2 _ R2. cbn beta in R2.
      eapply safe_bind; [apply safe_s64; auto; lia|]. intros e s2' _ _ [-> ->].
      eapply safe_bind; [apply safe_throw_if; auto|]. intros _ s2' _ _ [-> T2].
      rewrite u64_id in T2 by lia. apply Z.ltb_ge in T2. apply safe_ret; auto. lia. }
  intros l s2 I2 E2 [R2 R3].
  destruct (ext_has _ _ _ _ E2 Hx1) as (x2 & Hx2).
  eapply safe_bind; [apply safe_user; auto|]. intros _ s3 I3 E3 _.
  destruct (ext_has _ _ _ _ E3 Hx2) as (x3 & Hx3).
  eapply safe_bind; [apply safe_check; eauto|]. intros _ s3' _ _ [-> (k3 & Hk3)].
  assert (x3 = x1).
  { eapply ext_live with (s := s1) (s' := s3); eauto using ext_trans. rewrite Hk3. discriminate. }
  subst x3.
  eapply safe_weak; [apply safe_new_view; auto|auto].
  - unfold wf_view; cbn [voff vbytes vcount vtype]. repeat split; auto; lia.
  - exists x1. cbn [vbuf voff vbytes]. split; auto.
Qed.

Lemma covers_view : forall s vi v pos n, nth_error (views s) vi = Some v -> voff v <= pos -> pos + n <= voff v + vbytes v ->
  covers s (Some vi) (vbuf v) pos n.
Proof. intros. cbn. eauto 6. Qed.

Lemma safe_get_view : forall vi v idx le t s, inv s -> nth_error (views s) vi = Some v -> ok_arg idx ->
  safe (get_view_value dec vi idx le t) s (fun _ _ => True).
Proof.
  intros vi v idx le t s I Hv O. unfold get_view_value.
  eapply safe_bind; [apply safe_the_view; eauto|]. intros dv s0 _ _ [-> ->].
  destruct (vtype v); [apply safe_throw; auto|].
  eapply safe_bind; [apply safe_to_index; auto|]. intros i s1 I1 E1 R1. cbn beta in R1.
  pose proof (ext_view _ _ _ _ E1 Hv) as Hv1. destruct (view_buf _ _ _ I1 Hv1) as (x & Hx & Q).
  pose proof (view_wf _ _ _ I1 Hv1) as (W1 & W2 & W3 & _).
  eapply safe_bind; [apply safe_check; eauto|]. intros _ s1' _ _ [-> (k & Hk)].
  pose proof (size_pos t) as Sz.
  eapply safe_bind; [apply safe_throw_if; auto|]. intros _ s1' _ _ [-> T]. rewrite u64_id in T by lia. apply Z.ltb_ge in T.
  rewrite u64_id by lia.
  assert (L : live s1 (vbuf v) k (blen x)) by (unfold live; rewrite Hx, <- Hk; reflexivity).
  assert (D : voff v + vbytes v <= blen x) by (apply Q; rewrite Hk; discriminate).
  eapply safe_weak; [eapply safe_get_value; eauto; try lia|auto].
  apply covers_view; auto; lia.
Qed.
Lemma safe_set_view : forall vi v idx le t val s, inv s -> nth_error (views s) vi = Some v -> ok_arg idx -> ok_arg val ->
  safe (set_view_value enc vi idx le t val) s (fun _ _ => True).
Proof.
  intros vi v idx le t val s I Hv O O2. unfold set_view_value.
  eapply safe_bind; [apply safe_the_view; eauto|]. intros dv s0 _ _ [-> ->].
  destruct (vtype v); [apply safe_throw; auto|].
  eapply safe_bind; [apply safe_to_index; auto|]. intros i s0 I0 E0 R1. cbn beta in R1.
  eapply safe_bind; [apply safe_value; auto|]. intros w s1 I1 E1 _.
  pose proof (ext_view _ _ _ _ (ext_trans _ _ _ E0 E1) Hv) as Hv1. destruct (view_buf _ _ _ I1 Hv1) as (x & Hx & Q).
  pose proof (view_wf _ _ _ I1 Hv1) as (W1 & W2 & W3 & _).
  eapply safe_bind; [apply safe_check; eauto|]. intros _ s1' _ _ [-> (k & Hk)].
  pose proof (size_pos t) as Sz.
  eapply safe_bind; [apply safe_throw_if; auto|]. intros _ s1' _ _ [-> T]. rewrite u64_id in T by lia. apply Z.ltb_ge in T.
  rewrite u64_id by lia.
  assert (L : live s1 (vbuf v) k (blen x)) by (unfold live; rewrite Hx, <- Hk; reflexivity).
  assert (D : voff v + vbytes v <= blen x) by (apply Q; rewrite Hk; discriminate).
  eapply safe_bind; [eapply safe_set_value; eauto; try lia|].
  { apply covers_view; auto; lia. }
  intros _ s2 I2 _ _. apply safe_ret; auto.
Qed.

(** ** Elements *)
Lemma safe_the_array : forall vi v s, inv s -> nth_error (views s) vi = Some v ->
  safe (the_array vi) s (fun p s' => s' = s /\ fst p = v /\ vtype v = Some (snd p)).
Proof.
  intros vi v s I Hv. unfold the_array. eapply safe_bind; [apply safe_the_view; eauto|]. intros a s0 _ _ [-> ->].
  destruct (vtype v) as [t|] eqn:E; [|apply safe_throw; auto]. apply safe_ret; auto.
Qed.

Lemma safe_index : forall vi v n s, inv s -> nth_error (views s) vi = Some v ->
  safe (is_valid_int_index v n) s (fun i s' => s' = s /\ match i with
     | None => True
     | Some z => 0 <= z < vcount v /\ exists k x, nth_error (bufs s) (vbuf v) = Some x /\ db x = Some k end).
Proof.
  intros vi v n s I Hv. unfold is_valid_int_index. destruct (view_buf _ _ _ I Hv) as (x & Hx & Q).
  eapply safe_bind; [apply safe_is_detached; eauto|]. intros d s0 _ _ [-> ->].
  destruct (db x) as [k|] eqn:E; [|apply safe_ret; auto].
  repeat match goal with |- safe (if ?c then _ else _) _ _ =>
    destruct c eqn:?; [apply safe_ret; auto; fail|] end.
  apply safe_ret; auto. split; auto.
  match goal with H : _ || _ = false |- context [vcount v] => apply orb_false_iff in H; destruct H as [A B] end.
  apply Z.ltb_ge in A. apply Z.leb_gt in B. split; [lia|eauto].
Qed.

Lemma element_pos : forall s vi v t z k x, inv s -> nth_error (views s) vi = Some v -> vtype v = Some t ->
  0 <= z < vcount v -> nth_error (bufs s) (vbuf v) = Some x -> db x = Some k ->
  let pos := u64 (voff v + u64 (size_of t * z)) in
  pos = voff v + size_of t * z /\
  live s (vbuf v) k (blen x) /\ 0 <= pos /\ pos + size_of t <= blen x /\ covers s (Some vi) (vbuf v) pos (size_of t).
Proof.
  intros s vi v t z k x I Hv Ht Hz Hx Hk pos.
  pose proof (view_wf _ _ _ I Hv) as (W1 & W2 & W3 & W4 & W5). rewrite Ht in W5.
  pose proof (size_pos t) as Sz.
  assert (P : pos = voff v + size_of t * z).
  { unfold pos. rewrite (u64_id (size_of t * z)) by nia. apply u64_id. nia. }
  destruct (view_buf _ _ _ I Hv) as (x' & Hx' & Q). rewrite Hx in Hx'. injection Hx' as <-.
  specialize (Q ltac:(congruence)).
  split; [auto|split; [|split; [|split]]].
  - unfold live. rewrite Hx. destruct x; cbn in *; subst; auto.
  - nia.
  - nia.
  - rewrite P. apply covers_view; auto; nia.
Qed.

Lemma safe_element_get : forall vi v n s, inv s -> nth_error (views s) vi = Some v ->
  safe (element_get dec native vi n) s (fun _ s' => same s s').
Proof.
  intros vi v n s I Hv. unfold element_get.
  eapply safe_bind; [apply safe_the_array; eauto|]. intros [v' t] s0 _ _ (-> & E & Ht). cbn in E, Ht. subst v'.
  eapply safe_bind; [eapply safe_index; eauto|]. intros [z|] s0 _ _ [-> H].
  - destruct H as (Hz & k & x & Hx & Hk).
    destruct (element_pos s vi v t z k x I Hv Ht Hz Hx Hk) as (_ & L & P1 & P2 & C).
    eapply safe_bind; [eapply safe_get_value; eauto|]. intros w s2 I2 _ E2. apply safe_ret; auto.
  - apply safe_ret; auto. split; auto.
Qed.
Lemma safe_element_set : forall vi v n a s, inv s -> nth_error (views s) vi = Some v -> ok_arg a ->
  safe (element_set enc native vi n a) s (fun _ s' => True).
Proof.
  intros vi v n a s I Hv O. unfold element_set.
  eapply safe_bind; [apply safe_the_array; eauto|]. intros [v' t] s0 _ _ (-> & E & Ht). cbn in E, Ht. subst v'.
  eapply safe_bind; [apply safe_value; auto|]. intros w s1 I1 E1 _.
  pose proof (ext_view _ _ _ _ E1 Hv) as Hv1.
  eapply safe_bind; [eapply safe_index; eauto|]. intros [z|] s0 _ _ [-> H].
  - destruct H as (Hz & k & x & Hx & Hk).
    destruct (element_pos s1 vi v t z k x I1 Hv1 Ht Hz Hx Hk) as (_ & L & P1 & P2 & C).
    eapply safe_weak; [eapply safe_set_value; eauto|]. auto.
  - apply safe_ret; auto.
Qed.

(** ** Constructors *)
Lemma safe_alloc_typed : forall t len ok s, inv s -> 0 <= len < 2 ^ 53 ->
  safe (allocate_typed_array_buffer t len ok) s (fun v s' => wf_view v /\ views s' = views s /\
    exists x, nth_error (bufs s') (vbuf v) = Some x /\ (db x <> None -> voff v + vbytes v <= blen x)).
Proof.
  intros t len ok s I R. unfold allocate_typed_array_buffer. pose proof (size_pos t) as Sz.
  assert (U : u64 (size_of t * len) = size_of t * len) by (apply u64_id; nia).
  rewrite U. rewrite to_s64_id by nia.
  eapply safe_bind; [apply safe_alloc_quiet; auto|].
  intros b s1 I1 _ (R1 & k & L & _ & V & _). apply safe_ret; auto. split; [|split; auto].
  - unfold wf_view; cbn [voff vbytes vcount vtype]. repeat split; auto; nia.
  - exists (mkBuf (Some k) (size_of t * len)). cbn [vbuf voff vbytes blen]. split; [exact L|intros _; lia].
Qed.

Lemma safe_of_length : forall t len proto ok s, inv s -> ok_arg len -> ok_arg proto ->
  safe (typed_array_of_length t len proto ok) s (fun _ _ => True).
Proof.
  intros t len proto ok s I O1 O2. unfold typed_array_of_length.
  eapply safe_bind; [apply safe_to_index; auto|]. intros n s1 I1 _ R1. cbn beta in R1.
  eapply safe_bind; [apply safe_user; auto|]. intros _ s2 I2 _ _.
  eapply safe_bind; [apply safe_alloc_typed; auto|]. intros v s3 I3 _ (W & _ & X).
  eapply safe_weak; [apply safe_new_view; auto|auto].
Qed.

Lemma safe_of_buffer : forall t b x proto off len s, inv s -> nth_error (bufs s) b = Some x ->
  ok_arg proto -> ok_arg off -> ok_arg len ->
  safe (typed_array_of_buffer t b proto off len) s (fun _ _ => True).
Proof.
  intros t b x proto off len s I Hb O1 O2 O3. unfold typed_array_of_buffer. pose proof (size_pos t) as Sz.
  eapply safe_bind; [apply safe_user; auto|]. intros _ s1 I1 E1 _.
  eapply safe_bind; [apply safe_to_index; auto|]. intros o s2 I2 E2 R2. cbn beta in R2.
  eapply safe_bind; [apply safe_throw_if; auto|]. intros _ s2' _ _ [-> T1].
  apply negb_false_iff, Z.eqb_eq in T1.
  eapply safe_bind; [apply safe_to_index; auto|]. intros nlen s3 I3 E3 R3. cbn beta in R3.
  destruct (ext_has _ _ _ _ (ext_trans _ _ _ E1 (ext_trans _ _ _ E2 E3)) Hb) as (y & Hy).
  eapply safe_bind; [apply safe_check; eauto|]. intros _ s3' _ _ [-> (k & Hk)].
  eapply safe_bind; [apply safe_the_buf; eauto|]. intros ab s3' _ _ [-> ->].
  pose proof (buf_range _ _ _ I3 Hy) as Ry.
  eapply safe_bind with (Q1 := fun n s' => s' = s3 /\ 0 <= n /\ o + n <= blen y /\ n mod size_of t = 0).
  { destruct len as [|c].
    - eapply safe_bind; [apply safe_throw_if; auto|]. intros _ s3' _ _ [-> T2].
      apply negb_false_iff, Z.eqb_eq in T2.
      eapply safe_bind; [apply safe_s64; auto; lia|]. intros n s3' _ _ [-> ->].
      eapply safe_bind; [apply safe_throw_if; auto|]. intros _ s3' _ _ [-> T3]. apply Z.ltb_ge in T3.
      apply safe_ret; auto. split; auto. split; [lia|]. split; [lia|].
      rewrite Zminus_mod, T1, T2. reflexivity.
    - assert (Nz : 0 <= nlen * size_of t < 2 ^ 63) by nia.
      rewrite u64_id, to_s64_id by lia.
      eapply safe_bind; [apply safe_s64; auto; nia|]. intros e s3' _ _ [-> ->].
      eapply safe_bind; [apply safe_throw_if; auto|]. intros _ s3' _ _ [-> T3]. apply Z.ltb_ge in T3.
      apply safe_ret; auto. split; auto. split; [lia|]. split; [lia|]. apply Z.mod_mul. lia. }
  intros n s3' _ _ (-> & N1 & N2 & N3).
  eapply safe_weak; [apply safe_new_view; auto|auto].
  - unfold wf_view; cbn [voff vbytes vcount vtype]. rewrite u64_id by lia.
    assert (n = size_of t * (n / size_of t)) by (apply Z.div_exact; lia).
    assert (0 <= n / size_of t) by (apply Z.div_pos; lia).
    repeat split; auto; lia.
  - exists y. cbn [vbuf voff vbytes]. split; auto.
Qed.

(** Element by element conversion; [so], [to_] cover the whole range. *)
Lemma safe_convert : forall n s sb ks ms stp si so tb kt mt ttp ti to_, inv s ->
  live s sb ks ms -> live s tb kt mt ->
  0 <= si -> si + Z.of_nat n * size_of stp <= ms -> covers s so sb si (Z.of_nat n * size_of stp) ->
  0 <= ti -> ti + Z.of_nat n * size_of ttp <= mt -> covers s to_ tb ti (Z.of_nat n * size_of ttp) ->
  safe (convert_elements enc dec native n sb stp si so tb ttp ti to_) s (fun _ s' => same s s').
Proof.
  induction n as [|n IH]; intros s sb ks ms stp si so tb kt mt ttp ti to_ I Ls Lt S1 S2 SC T1 T2 TC; cbn [convert_elements].
  - apply safe_ret; auto. split; auto.
  - pose proof (size_pos stp). pose proof (size_pos ttp).
    pose proof (buf_range _ _ _ I Ls) as Rs. pose proof (buf_range _ _ _ I Lt) as Rt. cbn [blen] in Rs, Rt.
    rewrite Nat2Z.inj_succ in *.
    eapply safe_bind; [eapply safe_get_value; eauto; try nia|].
    { destruct so as [i|]; cbn in SC |- *; auto. destruct SC as (v & A & B & C & D). exists v. repeat split; auto. nia. }
    intros x s1 I1 _ [B1 V1].
    assert (L1s : live s1 sb ks ms) by (unfold live in *; rewrite B1; auto).
    assert (L1t : live s1 tb kt mt) by (unfold live in *; rewrite B1; auto).
    eapply safe_bind; [eapply safe_set_value; eauto; try nia|].
    { destruct to_ as [i|]; cbn in TC |- *; auto. destruct TC as (v & A & B & C & D). exists v. rewrite V1. repeat split; auto. nia. }
    intros _ s2 I2 _ [B2 V2].
    assert (L2s : live s2 sb ks ms) by (unfold live in *; rewrite B2; auto).
    assert (L2t : live s2 tb kt mt) by (unfold live in *; rewrite B2; auto).
    rewrite !u64_id by nia.
    eapply safe_weak; [eapply IH; eauto; try nia|].
    + destruct so as [i|]; cbn in SC |- *; auto. destruct SC as (v & A & B & C & D). exists v.
      rewrite V2, V1. repeat split; auto; nia.
    + destruct to_ as [i|]; cbn in TC |- *; auto. destruct TC as (v & A & B & C & D). exists v.
      rewrite V2, V1. repeat split; auto; nia.
    + intros _ s3 [B3 V3]. split; congruence.
Qed.

Lemma safe_clone : forall s src x pos n ok vi v, inv s -> nth_error (views s) vi = Some v -> vbuf v = src ->
  nth_error (bufs s) src = Some x -> voff v = pos -> n <= vbytes v -> 0 <= n ->
  safe (clone_array_buffer src pos n ok (Some vi)) s (fun b s' =>
    exists k kx m, live s' b k n /\ live s src kx m /\ keeps s s' /\ views s' = views s /\
      (length (bufs s) <= b)%nat /\ (length (blocks s) <= k)%nat /\ 0 <= n < 2 ^ 53).
Proof.
  intros s src x pos n ok vi v I Hv Es Hb Ep Hn Hn0. unfold clone_array_buffer.
  pose proof (view_wf _ _ _ I Hv) as (W1 & W2 & W3 & W4 & W5).
  rewrite to_s64_id by lia.
  eapply safe_bind; [apply safe_alloc_quiet; auto|].
  intros b s1 I1 E1 (R1 & k & L & K & V & Lb & Lk & _).
  eapply safe_bind; [apply safe_check; [auto|apply K; eauto]|]. intros _ s1' _ _ [-> (kx & Hx)].
  assert (Ls : live s1 src kx (blen x)) by (unfold live; rewrite <- Hx; apply K; auto).
  assert (Hv1 : nth_error (views s1) vi = Some v) by (rewrite V; auto).
  destruct (view_buf _ _ _ I1 Hv1) as (x' & Hx' & Q). rewrite Es in Hx'. rewrite (K _ _ Hb) in Hx'. injection Hx' as <-.
  specialize (Q ltac:(rewrite Hx; discriminate)).
  subst src pos.
  eapply safe_bind; [eapply safe_mem_read; eauto; try lia; apply covers_view; auto; lia|].
  intros bs s2 I2 _ (Lbs & B2 & V2 & _).
  eapply safe_bind; [eapply safe_mem_write with (b := b) (k := k) (m := n); auto; try lia|].
  { unfold live in *. rewrite B2. auto. }
  { exact Logic.I. }
  intros _ s3 I3 _ [B3 V3]. apply safe_ret; auto. exists k, kx, (blen x).
  assert (Bb : bufs s3 = bufs s1) by congruence.
  split; [unfold live in *; rewrite Bb; auto|]. split.
  { unfold live. rewrite <- Hx. exact Hb. }
  split; [intros c y Hc; rewrite Bb; auto|]. split; [congruence|]. auto.
Qed.

Lemma etype_eqb_spec : forall a b, reflect (a = b) (etype_eqb a b).
Proof. intros a b. destruct a, b; cbn; constructor; congruence. Qed.

Lemma live_of : forall s b x k, nth_error (bufs s) b = Some x -> x = mkBuf (Some k) (blen x) -> live s b k (blen x).
Proof. intros. unfold live. congruence. Qed.
Lemma keeps_live : forall s s' b k n, keeps s s' -> live s b k n -> live s' b k n.
Proof. unfold live. auto. Qed.

Lemma safe_of_typed : forall t si v proto ok s, inv s -> nth_error (views s) si = Some v -> ok_arg proto ->
  safe (typed_array_of_typed_array enc dec native t si proto ok) s (fun _ _ => True).
Proof.
  intros t si v proto ok s I Hv O. unfold typed_array_of_typed_array.
  eapply safe_bind; [apply safe_the_array; eauto|]. intros [v' stp] s0 _ _ (-> & E & Ht). cbn in E, Ht. subst v'.
  eapply safe_bind; [apply safe_user; auto|]. intros _ s1 I1 E1 _.
  pose proof (ext_view _ _ _ _ E1 Hv) as Hv1.
  pose proof (view_wf _ _ _ I1 Hv1) as W. destruct (count_range _ _ W Ht) as [Cr Cb].
  destruct W as (W1 & W2 & W3 & W4 & _).
  destruct (view_buf _ _ _ I1 Hv1) as (x & Hx & Q).
  pose proof (size_pos t) as Sz. pose proof (size_pos stp) as Ss.
  assert (U : u64 (size_of t * vcount v) = size_of t * vcount v) by (apply u64_id; nia).
  rewrite U.
  eapply safe_bind with (Q1 := fun b s' => 0 <= size_of t * vcount v < 2 ^ 53 /\ exists k, live s' b k (size_of t * vcount v)).
  { destruct (etype_eqb_spec t stp) as [->|N].
    - eapply safe_weak; [eapply safe_clone; eauto; lia|]. cbn beta. intros b s2 (k & kx & m & L & _ & _ & _ & _ & _ & R). eauto.
    - rewrite to_s64_id by nia.
      eapply safe_bind; [apply safe_alloc_quiet; auto|]. intros b s2 I2 _ (R & k & L & K & V & _).
      eapply safe_bind; [apply safe_check; [auto|apply K; eauto]|]. intros _ s2' _ _ [-> (ks & Hks)].
      specialize (Q ltac:(rewrite Hks; discriminate)).
      eapply safe_bind; [apply safe_throw_if; auto|]. intros _ s2' _ _ [-> _].
      eapply safe_bind; [eapply safe_convert with (ks := ks) (ms := blen x) (kt := k) (mt := size_of t * vcount v); auto|].
      + apply K in Hx. eapply live_of; eauto.
      + rewrite Z2Nat.id by lia. nia.
      + rewrite Z2Nat.id by lia. apply covers_view; [rewrite V; auto|lia|nia].
      + lia.
      + rewrite Z2Nat.id by lia. nia.
      + exact Logic.I.
      + intros _ s3 I3 _ [B3 V3]. apply safe_ret; auto. split; auto. exists k. unfold live in *. rewrite B3. auto. }
  intros b s2 I2 _ (R & k & L).
  eapply safe_weak; [apply safe_new_view; auto|auto].
  - unfold wf_view; cbn [voff vbytes vcount vtype]. repeat split; auto; lia.
  - eexists. cbn [vbuf voff vbytes]. split; [exact L|cbn [blen]; lia].
Qed.

Lemma safe_store_all : forall vs vi v k s, inv s -> nth_error (views s) vi = Some v -> Forall ok_arg vs ->
  safe (store_all enc native vi k vs) s (fun _ _ => True).
Proof.
  induction vs as [|a vs IH]; intros vi v k s I Hv F; cbn [store_all].
  - apply safe_ret; auto.
  - inversion F as [|? ? F1 F2]; subst.
    eapply safe_bind; [eapply safe_element_set; eauto|]. intros _ s1 I1 E1 _.
    eapply IH; eauto. eapply ext_view; eauto.
Qed.
Lemma safe_of_list : forall t proto pre vs ok s, inv s -> ok_arg proto -> ok_arg pre -> Forall ok_arg vs ->
  safe (typed_array_of_list enc native t proto pre vs ok) s (fun _ _ => True).
Proof.
  intros t proto pre vs ok s I O1 O2 F. unfold typed_array_of_list.
  eapply safe_bind; [apply safe_user; auto|]. intros _ s1 I1 _ _.
  eapply safe_bind; [apply safe_user; auto|]. intros _ s2 I2 _ _.
  eapply safe_bind; [apply safe_throw_if; auto|]. intros _ s2' _ _ [-> T]. apply Z.leb_gt in T.
  eapply safe_bind; [apply safe_alloc_typed; auto; lia|]. intros v s3 I3 _ (W & _ & X).
  eapply safe_bind; [apply safe_new_view; auto|]. intros i s4 I4 _ Hv. cbn beta in Hv.
  eapply safe_bind; [eapply safe_store_all; eauto|]. intros _ s5 I5 _ _. apply safe_ret; auto.
Qed.

(** ** Methods *)
Lemma safe_valid : forall vi v s, inv s -> nth_error (views s) vi = Some v ->
  safe (valid_typed_array vi) s (fun p s' => s' = s /\ fst p = v /\ vtype v = Some (snd p) /\
     exists k x, nth_error (bufs s) (vbuf v) = Some x /\ x = mkBuf (Some k) (blen x)).
Proof.
  intros vi v s I Hv. unfold valid_typed_array.
  eapply safe_bind; [apply safe_the_array; eauto|]. intros [v' t] s0 _ _ (-> & E & Ht). cbn in E, Ht. subst v'.
  destruct (view_buf _ _ _ I Hv) as (x & Hx & _).
  eapply safe_bind; [apply safe_check; eauto|]. intros _ s0 _ _ [-> (k & Hk)]. apply safe_ret; auto.
  cbn. repeat split; auto. eauto.
Qed.

Lemma safe_when : forall c m s, inv s -> (c = true -> safe m s (fun _ _ => True)) -> safe (when c m) s (fun _ _ => True).
Proof. intros [|] m s I H; cbn; auto. apply safe_ret; auto. Qed.

Lemma safe_copy_within : forall vi v a0 a1 a2 s, inv s -> nth_error (views s) vi = Some v ->
  ok_arg a0 -> ok_arg a1 -> ok_arg a2 -> safe (copy_within vi a0 a1 a2) s (fun _ _ => True).
Proof.
  intros vi v a0 a1 a2 s I Hv O0 O1 O2. unfold copy_within.
  eapply safe_bind; [apply safe_valid; eauto|]. intros [v' t] s0 _ _ (-> & E & Ht & _). cbn in E, Ht. subst v'.
  pose proof (view_wf _ _ _ I Hv) as W. destruct (count_range _ _ W Ht) as [Cr Cb].
  destruct W as (W1 & W2 & W3 & W4 & _). pose proof (size_pos t) as Sz.
  eapply safe_bind; [apply safe_to_integer; auto|]. intros r0 s1 I1 E1 _.
  eapply safe_bind; [apply safe_relative; auto|]. intros to s1' _ _ (-> & _ & R0).
  eapply safe_bind; [apply safe_to_integer; auto|]. intros r1 s2 I2 E2 _.
  eapply safe_bind; [apply safe_relative; auto|]. intros from s2' _ _ (-> & _ & R1).
  eapply safe_bind; [apply safe_to_end; auto|]. intros r2 s3 I3 E3 _.
  eapply safe_bind; [apply safe_relative; auto|]. intros final s3' _ _ (-> & _ & R2).
  eapply safe_bind; [apply safe_s64; auto; lia|]. intros d1 s3' _ _ [-> ->].
  eapply safe_bind; [apply safe_s64; auto; lia|]. intros d2 s3' _ _ [-> ->].
  apply safe_when; auto. intros C. apply Z.ltb_lt in C.
  pose proof (ext_view _ _ _ _ (ext_trans _ _ _ E1 (ext_trans _ _ _ E2 E3)) Hv) as Hv3.
  destruct (view_buf _ _ _ I3 Hv3) as (x & Hx & Q).
  eapply safe_bind; [apply safe_check; eauto|]. intros _ s3' _ _ [-> (k & Hk)].
  specialize (Q ltac:(rewrite Hk; discriminate)). pose proof (live_of _ _ _ _ Hx Hk) as L.
  eapply safe_bind; [apply safe_s64; auto; nia|]. intros p s3' _ _ [-> ->].
  eapply safe_bind; [apply safe_s64; auto; nia|]. intros fb s3' _ _ [-> ->].
  eapply safe_bind; [apply safe_s64; auto; nia|]. intros q s3' _ _ [-> ->].
  eapply safe_bind; [apply safe_s64; auto; nia|]. intros tb s3' _ _ [-> ->].
  eapply safe_bind; [apply safe_s64; auto; nia|]. intros cb s3' _ _ [-> ->].
  set (count := Z.min (final - from) (vcount v - to)) in *.
  assert (Hc : count <= final - from /\ count <= vcount v - to) by (unfold count; lia).
  eapply safe_bind; [eapply safe_mem_read; eauto; try nia; apply covers_view; auto; nia|].
  intros bs s4 I4 _ (Lb & B4 & V4 & _).
  assert (Lb' : Z.of_nat (length bs) = size_of t * count) by (rewrite Lb; nia).
  eapply safe_weak; [eapply safe_mem_write with (k := k) (m := blen x); auto; try nia|auto].
  - unfold live in *. rewrite B4. auto.
  - apply covers_view; [rewrite V4; auto|nia|nia].
Qed.

Lemma safe_fill_loop : forall n vi v k w s, inv s -> nth_error (views s) vi = Some v ->
  safe (fill_loop enc native n vi k w) s (fun _ _ => True).
Proof.
  induction n as [|n IH]; intros vi v k w s I Hv; cbn [fill_loop]; [apply safe_ret; auto|].
  eapply safe_bind; [eapply safe_element_set; eauto|].
  { intros s' I'. apply safe_ret; auto. }
  intros _ s1 I1 E1 _. eapply IH; eauto. eapply ext_view; eauto.
Qed.
Lemma safe_fill : forall vi v a0 a1 a2 s, inv s -> nth_error (views s) vi = Some v ->
  ok_arg a0 -> ok_arg a1 -> ok_arg a2 -> safe (fill enc native vi a0 a1 a2) s (fun _ _ => True).
Proof.
  intros vi v a0 a1 a2 s I Hv O0 O1 O2. unfold fill.
  eapply safe_bind; [apply safe_valid; eauto|]. intros [v' t] s0 _ _ (-> & E & Ht & _). cbn in E, Ht. subst v'.
  pose proof (view_wf _ _ _ I Hv) as W. destruct (count_range _ _ W Ht) as [Cr Cb].
  eapply safe_bind; [apply safe_value; auto|]. intros r0 s1 I1 E1 _.
  eapply safe_bind; [apply safe_to_integer; auto|]. intros r1 s2 I2 E2 _.
  eapply safe_bind; [apply safe_relative; auto|]. intros k s2' _ _ (-> & _ & R1).
  eapply safe_bind; [apply safe_to_end; auto|]. intros r2 s3 I3 E3 _.
  eapply safe_bind; [apply safe_relative; auto|]. intros final s3' _ _ (-> & _ & R2).
  pose proof (ext_view _ _ _ _ (ext_trans _ _ _ E1 (ext_trans _ _ _ E2 E3)) Hv) as Hv3.
  destruct (view_buf _ _ _ I3 Hv3) as (x & Hx & Q).
  eapply safe_bind; [apply safe_check; eauto|]. intros _ s3' _ _ [-> _].
  eapply safe_fill_loop; eauto.
Qed.

Lemma inv_flag : forall a b s, inv s -> inv (flag a b s).
Proof. intros a b s [B S V L]. split; auto. Qed.
Lemma safe_flag : forall a b s, inv s -> safe (fun s => Ret tt (flag a b s)) s (fun _ s' => same s s').
Proof. intros. split; [apply inv_flag; auto|split; [apply ext_same; auto|split; auto]]. Qed.

Lemma safe_block_of : forall s b k n, inv s -> live s b k n -> safe (block_of b) s (fun j s' => s' = s /\ j = k).
Proof.
  intros s b k n I L. unfold block_of. eapply safe_bind; [apply safe_the_buf; [auto|exact L]|].
  intros x s1 _ _ [-> ->]. cbn. apply safe_ret; auto.
Qed.

Lemma safe_memcpy : forall s tb kt mt tpos to_ sb ks ms spos so n, inv s -> live s tb kt mt -> live s sb ks ms ->
  0 <= n -> 0 <= tpos -> tpos + n <= mt -> covers s to_ tb tpos n ->
  0 <= spos -> spos + n <= ms -> covers s so sb spos n ->
  safe (memcpy tb tpos to_ sb spos so n) s (fun _ s' => True).
Proof.
  intros s tb kt mt tpos to_ sb ks ms spos so n I Lt Ls N T1 T2 TC S1 S2 SC. unfold memcpy.
  eapply safe_bind; [eapply safe_block_of; eauto|]. intros a s0 _ _ [-> ->].
  eapply safe_bind; [eapply safe_block_of; eauto|]. intros a s0 _ _ [-> ->].
  eapply safe_bind; [eapply safe_mem_read; eauto|]. intros bs s1 I1 _ (Lb & B1 & V1 & _).
  assert (Lb' : Z.of_nat (length bs) = n) by lia.
  eapply safe_bind; [eapply safe_mem_write with (k := kt) (m := mt); auto; try lia|].
  - unfold live in *. rewrite B1. auto.
  - rewrite Lb'. destruct to_ as [i|]; cbn in TC |- *; auto. rewrite V1. auto.
  - intros _ s2 I2 _ _. eapply safe_weak; [apply safe_flag; auto|auto].
Qed.
Lemma safe_lock : forall s a ka na b kb nb, inv s -> live s a ka na -> live s b kb nb ->
  safe (lock_both a b) s (fun _ s' => same s s').
Proof.
  intros s a ka na b kb nb I La Lb. unfold lock_both.
  eapply safe_bind; [eapply safe_block_of; eauto|]. intros x s0 _ _ [-> ->].
  eapply safe_bind; [eapply safe_block_of; eauto|]. intros x s0 _ _ [-> ->].
  apply (safe_flag false); auto.
Qed.

Lemma offset_ok : forall o slen tlen, 0 <= slen < 2 ^ 53 -> 0 <= tlen < 2 ^ 53 -> 0 <= o ->
  offset_too_big (Fin o) slen tlen = (tlen <? slen + o).
Proof.
  intros o slen tlen H1 H2 H3. unfold offset_too_big.
  destruct (Z.lt_ge_cases (slen + o) (2 ^ 53)) as [L|L].
  - rewrite rnd_id by lia. reflexivity.
  - pose proof (rnd_big _ L). destruct (Z.ltb_spec tlen (rnd (slen + o))), (Z.ltb_spec tlen (slen + o)); lia || auto.
Qed.

Lemma same_live : forall s s' b k n, same s s' -> live s b k n -> live s' b k n.
Proof. intros s s' b k n [B _]. unfold live. rewrite B. auto. Qed.
Lemma same_covers : forall s s' o b p n, same s s' -> covers s o b p n -> covers s' o b p n.
Proof. intros s s' o b p n [_ V]. unfold covers. rewrite V. auto. Qed.

Lemma loop_count : forall a n e, 0 < e -> 0 <= n -> (a + e * n - a + e - 1) / e = n.
Proof.
  intros a n e E N. replace (a + e * n - a + e - 1) with (n * e + (e - 1)) by lia.
  rewrite Z.div_add_l by lia. rewrite Z.div_small by lia. lia.
Qed.

Lemma safe_set_typed : forall ti tv si sv o ok s, inv s ->
  nth_error (views s) ti = Some tv -> nth_error (views s) si = Some sv -> negative o = false ->
  safe (set_from_typed_array enc dec native ti si o ok) s (fun _ _ => True).
Proof.
  intros ti tv si sv o ok s I Ht Hs No. unfold set_from_typed_array.
  eapply safe_bind; [apply safe_the_array; eauto|]. intros [v' tt_] s0 _ _ (-> & E & Tt). cbn in E, Tt. subst v'.
  destruct (view_buf _ _ _ I Ht) as (xt & Hxt & Qt).
  eapply safe_bind; [apply safe_check; eauto|]. intros _ s0 _ _ [-> (kt & Hkt)].
  eapply safe_bind; [apply safe_the_array; eauto|]. intros [v' ts_] s0 _ _ (-> & E & Ts). cbn in E, Ts. subst v'.
  destruct (view_buf _ _ _ I Hs) as (xs & Hxs & Qs).
  eapply safe_bind; [apply safe_check; eauto|]. intros _ s0 _ _ [-> (ks & Hks)].
  specialize (Qt ltac:(rewrite Hkt; discriminate)). specialize (Qs ltac:(rewrite Hks; discriminate)).
  pose proof (view_wf _ _ _ I Ht) as Wt. destruct (count_range _ _ Wt Tt) as [Ct Cbt]. destruct Wt as (T1 & T2 & T3 & T4 & _).
  pose proof (view_wf _ _ _ I Hs) as Ws. destruct (count_range _ _ Ws Ts) as [Cs Cbs]. destruct Ws as (S1 & S2 & S3 & S4 & _).
  pose proof (live_of _ _ _ _ Hxt Hkt) as Lt. pose proof (live_of _ _ _ _ Hxs Hks) as Ls.
  pose proof (size_pos tt_) as Zt. pose proof (size_pos ts_) as Zs.
  eapply safe_bind; [apply safe_throw_if; auto|]. intros _ s0 _ _ [-> Off].
  eapply safe_bind; [apply safe_throw_if; auto|]. intros _ s0 _ _ [-> _].
  eapply safe_bind; [eapply safe_block_of; eauto|]. intros a s0 _ _ [-> ->].
  eapply safe_bind; [eapply safe_block_of; eauto|]. intros a s0 _ _ [-> ->].
  destruct o as [|o|]; try discriminate. cbn in No. apply Z.ltb_ge in No.
  rewrite offset_ok in Off by auto. apply Z.ltb_ge in Off.
  eapply safe_bind with (Q1 := fun p s' => let '(sb, sx, so) := p in keeps s s' /\ views s' = views s /\
     exists k m, live s' sb k m /\ 0 <= sx /\ sx + size_of ts_ * vcount sv <= m /\ covers s' so sb sx (size_of ts_ * vcount sv)).
  { destruct (Nat.eqb_spec ks kt) as [Ek|Nk].
    - eapply safe_bind; [eapply safe_clone; eauto; lia|].
      intros b s2 I2 _ (k & kx & m & L & _ & K & V & _ & _ & R). apply safe_ret; auto.
      split; auto. split; auto. exists k, (vbytes sv). repeat split; auto; try lia; exact Logic.I.
    - apply safe_ret; auto. split; [intros ? ?; auto|]. split; auto. exists ks, (blen xs).
      repeat split; auto; try nia. apply covers_view; auto; nia. }
  intros [[sb sx] so] s1 I1 _ (K & V & k & m & L & X1 & X2 & X3).
  assert (U : u64 (u64 (u64 o * size_of tt_) + voff tv) = o * size_of tt_ + voff tv).
  { rewrite (u64_id o) by nia. rewrite (u64_id (o * size_of tt_)) by nia. apply u64_id. nia. }
  rewrite U.
  assert (U2 : u64 (o * size_of tt_ + voff tv + u64 (size_of tt_ * vcount sv)) = o * size_of tt_ + voff tv + size_of tt_ * vcount sv).
  { rewrite (u64_id (size_of tt_ * vcount sv)) by nia. apply u64_id. nia. }
  rewrite U2.
  pose proof (keeps_live _ _ _ _ _ K Lt) as Lt1.
  assert (Ht1 : nth_error (views s1) ti = Some tv) by (rewrite V; auto).
  destruct (etype_eqb_spec ts_ tt_) as [->|N].
  - eapply safe_bind; [eapply safe_lock; eauto|]. intros u s2 I2 _ Sm. cbn beta in Sm.
    replace (o * size_of tt_ + voff tv + size_of tt_ * vcount sv - (o * size_of tt_ + voff tv)) with (size_of tt_ * vcount sv) by lia.
    rewrite u64_id by nia.
    eapply safe_memcpy; [auto|eapply same_live; eauto|eapply same_live; eauto| | | | | | |]; try nia; auto.
    + eapply same_covers; eauto. apply covers_view; auto; nia.
    + eapply same_covers; eauto.
  - rewrite loop_count by lia.
    eapply safe_weak; [eapply safe_convert with (ks := k) (ms := m) (kt := kt) (mt := blen xt); auto|auto];
      rewrite ?Z2Nat.id by lia; try nia.
    + replace (vcount sv * size_of ts_) with (size_of ts_ * vcount sv) by lia. auto.
    + apply covers_view; auto; nia.
Qed.

Lemma safe_set_all : forall vs vi v k toff s, inv s -> nth_error (views s) vi = Some v -> Forall ok_arg vs ->
  safe (set_all enc native vi k toff vs) s (fun _ _ => True).
Proof.
  induction vs as [|a vs IH]; intros vi v k toff s I Hv F; cbn [set_all].
  - apply safe_ret; auto.
  - inversion F as [|? ? F1 F2]; subst.
    eapply safe_bind; [eapply safe_element_set; eauto|]. intros _ s1 I1 E1 _.
    eapply IH; eauto. eapply ext_view; eauto.
Qed.
Lemma safe_set_list : forall ti tv o pre vs s, inv s -> nth_error (views s) ti = Some tv -> negative o = false ->
  ok_arg pre -> Forall ok_arg vs -> safe (set_from_list enc native ti o pre vs) s (fun _ _ => True).
Proof.
  intros ti tv o pre vs s I Ht No O F. unfold set_from_list.
  eapply safe_bind; [apply safe_the_array; eauto|]. intros [v' tt_] s0 _ _ (-> & E & Tt). cbn in E, Tt. subst v'.
  destruct (view_buf _ _ _ I Ht) as (xt & Hxt & Qt).
  eapply safe_bind; [apply safe_check; eauto|]. intros _ s0 _ _ [-> (kt & Hkt)].
  eapply safe_bind; [apply safe_user; auto|]. intros _ s1 I1 E1 _.
  eapply safe_bind; [apply safe_throw_if; auto|]. intros _ s1' _ _ [-> Off].
  destruct o as [|o|]; try discriminate. eapply safe_set_all; eauto. eapply ext_view; eauto.
Qed.

Lemma safe_offset : forall a s, inv s -> ok_arg a ->
  safe (let! o := to_integer a in throw_if (negative o) ;; ret o) s (fun o _ => negative o = false).
Proof.
  intros a s I O. eapply safe_bind; [apply safe_to_integer; auto|]. intros o s1 I1 _ _.
  eapply safe_bind; [apply safe_throw_if; auto|]. intros _ s1' _ _ [-> N]. apply safe_ret; auto.
Qed.

Lemma safe_slice_loop : forall n vi v ni w k i s, inv s -> nth_error (views s) vi = Some v -> nth_error (views s) ni = Some w ->
  safe (slice_loop enc dec native n vi ni k i) s (fun _ _ => True).
Proof.
  induction n as [|n IH]; intros vi v ni w k i s I Hv Hw; cbn [slice_loop]; [apply safe_ret; auto|].
  eapply safe_bind; [eapply safe_element_get; eauto|]. intros x s1 I1 E1 _.
  eapply safe_bind; [eapply safe_element_set with (v := w); eauto using ext_view|].
  { destruct x; cbn; auto. intros s' I'. apply safe_ret; auto. }
  intros _ s2 I2 E2 _. eapply IH with (v := v) (w := w); auto; eauto 8 using ext_view, ext_trans.
Qed.

Lemma safe_slice : forall vi v a0 a1 a2 s, inv s -> nth_error (views s) vi = Some v ->
  ok_arg a0 -> ok_arg a1 -> ok_arg a2 -> safe (slice enc dec native vi a0 a1 a2) s (fun _ _ => True).
Proof.
  intros vi v a0 a1 a2 s I Hv O0 O1 O2. unfold slice.
  eapply safe_bind; [apply safe_valid; eauto|]. intros [v' t] s0 _ _ (-> & E & Ht & _). cbn in E, Ht. subst v'.
  pose proof (view_wf _ _ _ I Hv) as W. destruct (count_range _ _ W Ht) as [Cr Cb].
  destruct W as (W1 & W2 & W3 & W4 & _). pose proof (size_pos t) as Sz.
  eapply safe_bind; [apply safe_to_integer; auto|]. intros r0 s1 I1 E1 _.
  eapply safe_bind; [apply safe_relative; auto|]. intros k s1' _ _ (-> & _ & R0).
  eapply safe_bind; [apply safe_to_end; auto|]. intros r1 s2 I2 E2 _.
  eapply safe_bind; [apply safe_relative; auto|]. intros final s2' _ _ (-> & _ & R1).
  eapply safe_bind; [apply safe_s64; auto; lia|]. intros d s2' _ _ [-> ->].
  pose proof (ext_view _ _ _ _ (ext_trans _ _ _ E1 E2) Hv) as Hv2.
  eapply safe_bind with (Q1 := fun ni s' => exists w t' x kx, nth_error (views s') ni = Some w /\ vtype w = Some t' /\
      Z.max 0 (final - k) <= vcount w /\ nth_error (bufs s') (vbuf w) = Some x /\ x = mkBuf (Some kx) (blen x)).
  { unfold species_create. eapply safe_bind; [apply safe_the_array; eauto|]. intros [v' t'] s0 _ _ (-> & E & _). cbn in E. subst v'.
    eapply safe_bind; [apply safe_user; auto|]. intros n s3 I3 _ _.
    unfold safe. destruct (nth_error (views s3) (Z.to_nat n)) as [w|] eqn:Hw; [|split; auto using ext_refl].
    change (safe (let! (niio, nt) := valid_typed_array (Z.to_nat n) in
        throw_if (vcount niio <? Z.max 0 (final - k));;
        throw_if (negb (Bool.eqb (content_is_big_int t') (content_is_big_int nt)));; ret (Z.to_nat n)) s3
        (fun ni s' => exists w t' x kx, nth_error (views s') ni = Some w /\ vtype w = Some t' /\
          Z.max 0 (final - k) <= vcount w /\ nth_error (bufs s') (vbuf w) = Some x /\ x = mkBuf (Some kx) (blen x))).
    eapply safe_bind; [apply safe_valid; eauto|]. intros [w' tw] s0 _ _ (-> & E & Tw & kx & x & Hx & Ex). cbn in E, Tw. subst w'.
    eapply safe_bind; [apply safe_throw_if; auto|]. intros _ s0 _ _ [-> Lw]. apply Z.ltb_ge in Lw.
    eapply safe_bind; [apply safe_throw_if; auto|]. intros _ s0 _ _ [-> _].
    apply safe_ret; auto. exists w, tw, x, kx. auto. }
  intros ni s3 I3 E3 (w & tw & x & kx & Hw & Tw & Lw & Hx & Ex).
  eapply safe_bind; [|intros _ s4 I4 _ _; apply safe_ret; auto].
  pose proof (ext_view _ _ _ _ E3 Hv2) as Hv3.
  apply safe_when; auto. intros C. apply Z.ltb_lt in C.
  destruct (view_buf _ _ _ I3 Hv3) as (y & Hy & Qy).
  eapply safe_bind; [apply safe_check; eauto|]. intros _ s0 _ _ [-> (ky & Ey)].
  eapply safe_bind; [apply safe_the_array; eauto|]. intros [w' tw'] s0 _ _ (-> & E & Tw'). cbn in E, Tw'. subst w'.
  destruct (etype_eqb_spec t tw') as [<-|N].
  - rewrite Tw in Tw'. injection Tw' as ->.
    pose proof (live_of _ _ _ _ Hx Ex) as Lx. pose proof (live_of _ _ _ _ Hy Ey) as Ly.
    specialize (Qy ltac:(rewrite Ey; discriminate)).
    destruct (view_buf _ _ _ I3 Hw) as (x' & Hx' & Qx). rewrite Hx in Hx'. injection Hx' as <-.
    specialize (Qx ltac:(rewrite Ex; discriminate)).
    pose proof (view_wf _ _ _ I3 Hw) as Ww. destruct (count_range _ _ Ww Tw) as [Cw Cbw]. destruct Ww as (A1 & A2 & A3 & A4 & _).
    eapply safe_bind; [eapply safe_lock; eauto|]. intros u s4 I4 _ Sm. cbn beta in Sm.
    rewrite (u64_id (k * size_of t)) by nia. rewrite u64_id by nia. rewrite u64_id by nia.
    eapply safe_memcpy; [auto|eapply same_live; eauto|eapply same_live; eauto| | | | | | |]; try nia; auto;
      eapply same_covers; eauto; apply covers_view; auto; nia.
  - eapply safe_slice_loop; eauto.
Qed.

(** ** Programs *)
Lemma safe_has_buf : forall b m s, inv s -> (forall x, nth_error (bufs s) b = Some x -> safe m s (fun _ _ => True)) ->
  safe (has_buf b m) s (fun _ _ => True).
Proof.
  intros b m s I H. unfold safe, has_buf. destruct (nth_error (bufs s) b) as [x|] eqn:E; [apply (H x); auto|auto using ext_refl].
Qed.
Lemma safe_has_view : forall b m s, inv s -> (forall x, nth_error (views s) b = Some x -> safe m s (fun _ _ => True)) ->
  safe (has_view b m) s (fun _ _ => True).
Proof.
  intros b m s I H. unfold safe, has_view. destruct (nth_error (views s) b) as [x|] eqn:E; [apply (H x); auto|auto using ext_refl].
Qed.
Lemma safe_unit : forall A (m : M A) s Q, safe m s Q -> safe (m ;; ret tt) s (fun _ _ => True).
Proof. intros A m s Q H. eapply safe_bind; [exact H|]. intros. apply safe_ret; auto. Qed.

Lemma ok_at : forall l i, Forall ok_arg l -> ok_arg (arg_at l i).
Proof.
  intros l i F. unfold arg_at. revert i. induction F; intros [|i]; cbn; auto.
Qed.
Lemma ok_skip : forall n l, Forall ok_arg l -> Forall ok_arg (skipn n l).
Proof. induction n; intros l F; cbn; auto. destruct F; auto. Qed.

Lemma safe_step : forall o a s, inv s -> Forall ok_arg a -> safe (step enc dec native o a) s (fun _ _ => True).
Proof.
  intros o a s I F. unfold step.
  pose proof (ok_at a 0 F) as O0. pose proof (ok_at a 1 F) as O1. pose proof (ok_at a 2 F) as O2.
  pose proof (ok_skip 2 a F) as O3.
  destruct o.
  - eapply safe_bind; [apply safe_to_index; auto|]. intros len s1 I1 _ _.
    eapply safe_unit. apply safe_alloc; auto. apply ok_user; auto.
  - apply safe_has_buf; auto. intros x H. eapply safe_unit. eapply safe_alias; eauto.
  - apply safe_has_buf; auto. intros x H. eapply safe_detach; eauto.
  - apply safe_has_buf; auto. intros x H. eapply safe_unit. eapply safe_data_view; eauto.
  - apply safe_has_view; auto. intros x H. eapply safe_unit. eapply safe_get_view; eauto.
  - apply safe_has_view; auto. intros x H. eapply safe_unit. eapply safe_set_view; eauto.
  - eapply safe_unit. apply safe_of_length; auto.
  - apply safe_has_buf; auto. intros x H. eapply safe_unit. eapply safe_of_buffer; eauto.
  - apply safe_has_view; auto. intros x H. eapply safe_unit. eapply safe_of_typed; eauto.
  - eapply safe_unit. apply safe_of_list; auto.
  - apply safe_has_view; auto. intros x H. eapply safe_unit. eapply safe_element_get; eauto.
  - apply safe_has_view; auto. intros x H. eapply safe_element_set; eauto.
  - apply safe_has_view; auto. intros x H. eapply safe_copy_within; eauto.
  - apply safe_has_view; auto. intros x H. eapply safe_fill; eauto.
  - apply safe_has_view; auto. intros x H. apply safe_has_view; auto. intros y H'.
    unfold set_typed, ta_set. eapply safe_bind; [apply safe_the_array; eauto|]. intros p s1 _ _ (-> & _).
    eapply safe_bind; [apply safe_offset; auto|]. intros of s1 I1 E1 N.
    eapply safe_set_typed; eauto using ext_view.
  - apply safe_has_view; auto. intros x H.
    unfold set_list, ta_set. eapply safe_bind; [apply safe_the_array; eauto|]. intros p s1 _ _ (-> & _).
    eapply safe_bind; [apply safe_offset; auto|]. intros of s1 I1 E1 N.
    eapply safe_set_list; eauto using ext_view.
  - apply safe_has_view; auto. intros x H. eapply safe_unit. eapply safe_slice; eauto.
Qed.

Lemma safe_catch : forall m s, safe m s (fun _ _ => True) ->
  exists s', catch m s = Ret tt s' /\ inv s' /\ ext s s'.
Proof.
  intros m s H. unfold safe, catch in *. destruct (m s) as [a s'|s'|]; [| |tauto].
  - destruct H as (A & B & _). eauto.
  - destruct H as (A & B). eauto.
Qed.

Lemma act_induction : forall (P : act -> Prop),
  (forall o args, (forall p r, In (Some (p, r)) args -> Forall P p) -> P (Do o args)) -> forall a, P a.
Proof.
  intros P H. fix IH 1. intros [o args]. apply H.
  induction args as [|x args IHa]; intros p r Hin; [destruct Hin|].
  destruct Hin as [E|Hin]; [|eapply IHa; eauto].
  destruct x as [[q z]|]; [|discriminate].
  injection E as <- _. clear IHa. induction q as [|a q IHq]; constructor; auto.
Qed.

Lemma run_all : forall p, Forall (fun a => forall s, inv s -> exists s', run_act enc dec native a s = Ret tt s' /\ inv s' /\ ext s s') p ->
  forall s, inv s -> exists s', run enc dec native p s = Ret tt s' /\ inv s' /\ ext s s'.
Proof.
  intros p F. induction F as [|a p A F IH]; intros s I; cbn.
  - exists s. split; [reflexivity|]. auto using ext_refl.
  - destruct (A s I) as (s1 & E1 & I1 & X1). destruct (IH s1 I1) as (s2 & E2 & I2 & X2).
    exists s2. unfold bind. rewrite E1. split; [exact E2|]. split; auto. eapply ext_trans; eauto.
Qed.

Lemma run_act_ok : forall a s, inv s -> exists s', run_act enc dec native a s = Ret tt s' /\ inv s' /\ ext s s'.
Proof.
  intros a. induction a as [o args IH] using act_induction. intros s I. cbn [run_act].
  apply safe_catch. apply safe_step; auto.
  apply Forall_forall. intros x Hx. apply in_map_iff in Hx. destruct Hx as (y & <- & Hy).
  destruct y as [[p r]|]; [|exact Logic.I]. cbn. intros s1 I1.
  destruct (run_all p (IH p r Hy) s1 I1) as (s2 & E2 & I2 & X2).
  eapply safe_bind with (m := run enc dec native p) (Q1 := fun _ _ => True).
  - unfold safe. rewrite E2. auto.
  - intros _ s3 I3 _ _. destruct r; [apply safe_ret|apply safe_throw]; auto.
Qed.

Lemma run_ok : forall p s, inv s -> exists s', run enc dec native p s = Ret tt s' /\ inv s' /\ ext s s'.
Proof.
  intros p. apply run_all. apply Forall_forall. intros a _ s. apply run_act_ok.
Qed.
End ENC.

Lemma inv_init : inv init.
Proof.
  split; cbn.
  - intros b k n H. destruct b; discriminate.
  - intros b x H. destruct b; discriminate.
  - intros i v H. destruct i; discriminate.
  - intros e H. destruct H.
Qed.
