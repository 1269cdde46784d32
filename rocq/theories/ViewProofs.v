(** Proofs about ViewModel.v. *)
From Coq Require Import ZArith List Bool Lia.
Import ListNotations.
From Verif Require Import StrModel NumModel BufModel ViewModel ViewSpec.
Local Open Scope Z_scope.

Arguments u64 : simpl never.
Arguments to_s64 : simpl never.
Arguments size_of : simpl never.
Arguments rnd : simpl never.

(** ** Lists *)
Lemma nth_upd : forall A (l : list A) n m a, nth_error (upd n a l) m =
  if Nat.eqb m n then (match nth_error l n with Some _ => Some a | None => None end) else nth_error l m.
Proof.
  induction l as [|x l IH]; intros n m a; cbn.
  - destruct n, m; cbn; auto. destruct (Nat.eqb m n); reflexivity.
  - destruct n, m; cbn; auto.
Qed.
Lemma nth_snoc : forall A (l : list A) a n x, nth_error l n = Some x -> nth_error (l ++ [a]) n = Some x.
Proof.
  intros A l a n x H. rewrite nth_error_app1; auto. apply nth_error_Some. congruence.
Qed.
Lemma nth_snoc_inv : forall A (l : list A) a n x, nth_error (l ++ [a]) n = Some x ->
  nth_error l n = Some x \/ n = length l /\ x = a.
Proof.
  intros A l a n x H. destruct (lt_dec n (length l)) as [L|L].
  - rewrite nth_error_app1 in H by lia. auto.
  - rewrite nth_error_app2 in H by lia. destruct (n - length l)%nat eqn:E.
    + cbn in H. injection H as <-. right. split; [lia|auto].
    + cbn in H. destruct n0; discriminate.
Qed.
Lemma nth_last : forall A (l : list A) a, nth_error (l ++ [a]) (length l) = Some a.
Proof. intros. rewrite nth_error_app2 by lia. rewrite Nat.sub_diag. reflexivity. Qed.

(** ** Arithmetic *)
Lemma size_pos : forall t, 1 <= size_of t <= 8.
Proof. destruct t; unfold size_of; cbn; lia. Qed.
Lemma u64_id : forall z, 0 <= z < 2 ^ 64 -> u64 z = z.
Proof. intros. apply Z.mod_small. auto. Qed.
Lemma to_s64_id : forall z, 0 <= z < 2 ^ 63 -> to_s64 z = z.
Proof.
  intros z H. unfold to_s64, to_signed. change (64 - 1) with 63.
  rewrite Z.mod_small; [lia|]. assert (2 ^ 64 = 2 ^ 63 + 2 ^ 63) by reflexivity. lia.
Qed.

(** ** The invariant *)
Definition wf_view (v : view) : Prop :=
  0 <= voff v /\ 0 <= vbytes v /\ voff v + vbytes v < 2 ^ 53 /\ 0 <= vcount v /\
  match vtype v with Some t => vbytes v = size_of t * vcount v | None => True end.

Record inv (s : st) : Prop := {
  i_buf : forall b k n, nth_error (bufs s) b = Some (mkBuf (Some k) n) ->
    exists d h, nth_error (blocks s) k = Some (mkBlock (Some d) h) /\ Z.of_nat (length d) = n;
  i_small : forall b x, nth_error (bufs s) b = Some x -> 0 <= blen x < 2 ^ 53;
  i_view : forall i v, nth_error (views s) i = Some v ->
    wf_view v /\ exists x, nth_error (bufs s) (vbuf v) = Some x /\ (db x <> None -> voff v + vbytes v <= blen x);
  i_log : respects s }.

(** What later states keep. *)
Definition ext (s s' : st) : Prop :=
  (forall i v, nth_error (views s) i = Some v -> nth_error (views s') i = Some v) /\
  (forall b x, nth_error (bufs s) b = Some x ->
     exists x', nth_error (bufs s') b = Some x' /\ (x' = x \/ db x' = None)).
(** ... without user code in between *)
Definition keeps (s s' : st) : Prop :=
  forall b x, nth_error (bufs s) b = Some x -> nth_error (bufs s') b = Some x.

Lemma ext_refl : forall s, ext s s.
Proof. intros s. split; eauto. Qed.
Lemma ext_same : forall s s', views s' = views s -> bufs s' = bufs s -> ext s s'.
Proof. intros s s' V B. split; rewrite ?V, ?B; eauto. Qed.
Lemma ext_trans : forall a b c, ext a b -> ext b c -> ext a c.
Proof.
  intros a b c [V1 B1] [V2 B2]. split; auto. intros i x H.
  destruct (B1 i x H) as (x1 & H1 & [->|E1]).
  - destruct (B2 i x H1) as (x2 & H2 & E). eauto.
  - destruct (B2 i x1 H1) as (x2 & H2 & [->|E]); eauto.
Qed.
Lemma ext_view : forall s s' i v, ext s s' -> nth_error (views s) i = Some v -> nth_error (views s') i = Some v.
Proof. intros s s' i v [V _]. auto. Qed.
Lemma ext_has : forall s s' b x, ext s s' -> nth_error (bufs s) b = Some x -> exists y, nth_error (bufs s') b = Some y.
Proof. intros s s' b x [_ B] H. destruct (B b x H) as (y & Hy & _). eauto. Qed.

(** ** Safety of computations *)
Definition safe {A} (m : M A) (s : st) (Q : A -> st -> Prop) : Prop :=
  match m s with
  | Ret a s' => inv s' /\ ext s s' /\ Q a s'
  | Thr s' => inv s' /\ ext s s'
  | Ub => False
  end.
Arguments safe : simpl never.

Lemma safe_bind : forall A B (m : M A) (k : A -> M B) s (Q1 : A -> st -> Prop) Q2,
  safe m s Q1 ->
  (forall a s1, inv s1 -> ext s s1 -> Q1 a s1 -> safe (k a) s1 Q2) ->
  safe (bind m k) s Q2.
Proof.
  intros A B m k s Q1 Q2 H K. unfold safe, bind in *. destruct (m s) as [a s1|s1|]; auto.
  destruct H as (I1 & E1 & H1). specialize (K a s1 I1 E1 H1).
  destruct (k a s1) as [b s2|s2|]; auto.
  - destruct K as (I2 & E2 & H2). split; [|split]; auto. eapply ext_trans; eauto.
  - destruct K as (I2 & E2). split; auto. eapply ext_trans; eauto.
Qed.
Lemma safe_weak : forall A (m : M A) s (Q Q' : A -> st -> Prop),
  safe m s Q -> (forall a s', Q a s' -> Q' a s') -> safe m s Q'.
Proof. intros A m s Q Q' H K. unfold safe in *. destruct (m s); auto. destruct H as (?&?&?). auto. Qed.
Lemma safe_ret : forall A (a : A) s (Q : A -> st -> Prop), inv s -> Q a s -> safe (ret a) s Q.
Proof. intros. unfold safe, ret. split; [|split]; auto using ext_refl. Qed.
Lemma safe_throw : forall A s (Q : A -> st -> Prop), inv s -> safe throw s Q.
Proof. intros. unfold safe, throw. auto using ext_refl. Qed.
Lemma safe_throw_if : forall c s, inv s -> safe (throw_if c) s (fun _ s' => s' = s /\ c = false).
Proof. intros [|] s H; unfold throw_if; [apply safe_throw|apply safe_ret]; auto. Qed.
Lemma safe_s64 : forall z s, inv s -> - 2 ^ 63 <= z < 2 ^ 63 -> safe (s64 z) s (fun a s' => s' = s /\ a = z).
Proof.
  intros z s H R. unfold s64.
  rewrite (proj2 (Z.leb_le _ _)) by lia. rewrite (proj2 (Z.ltb_lt _ _)) by lia. cbn [andb]. apply (safe_ret _ z); auto.
Qed.
Lemma safe_the_view : forall i v s, inv s -> nth_error (views s) i = Some v ->
  safe (the_view i) s (fun a s' => s' = s /\ a = v).
Proof. intros i v s I H. unfold safe, the_view. rewrite H. auto using ext_refl. Qed.
Lemma safe_the_buf : forall b x s, inv s -> nth_error (bufs s) b = Some x ->
  safe (the_buf b) s (fun a s' => s' = s /\ a = x).
Proof. intros b x s I H. unfold safe, the_buf. rewrite H. auto using ext_refl. Qed.

(** A live buffer. *)
Definition live (s : st) (b k : nat) (n : Z) : Prop := nth_error (bufs s) b = Some (mkBuf (Some k) n).

Lemma safe_is_detached : forall b x s, inv s -> nth_error (bufs s) b = Some x ->
  safe (is_detached b) s (fun a s' => s' = s /\ a = match db x with None => true | Some _ => false end).
Proof.
  intros b x s I H. unfold is_detached. eapply safe_bind; [apply safe_the_buf; eauto|].
  intros a s1 I1 _ [-> ->]. apply safe_ret; auto.
Qed.
Lemma safe_check : forall b x s, inv s -> nth_error (bufs s) b = Some x ->
  safe (check_detached b) s (fun _ s' => s' = s /\ exists k, x = mkBuf (Some k) (blen x)).
Proof.
  intros b x s I H. unfold check_detached.
  eapply safe_bind; [apply safe_is_detached; eauto|].
  intros a s1 I1 _ [-> ->]. destruct x as [[k|] n]; cbn.
  - apply safe_ret; eauto.
  - apply safe_throw; auto.
Qed.

(** ** Memory *)

Definition covers (s : st) (o : option nat) (b : nat) (pos n : Z) : Prop :=
  match o with
  | None => True
  | Some i => exists v, nth_error (views s) i = Some v /\ vbuf v = b /\ voff v <= pos /\ pos + n <= voff v + vbytes v
  end.

Lemma inv_event : forall s e, inv s ->
  (exists v, nth_error (views s) (eview e) = Some v /\ inside v e) -> inv (add_event e s).
Proof.
  intros s e [B S V L] H. split; cbn; auto. unfold respects in *; cbn. intros e' H'.
  apply in_app_or in H'. destruct H' as [H'|[<-|[]]]; auto.
Qed.

Lemma splice_length : forall d pos bs, (pos + length bs <= length d)%nat -> length (splice d pos bs) = length d.
Proof.
  intros d pos bs H. unfold splice. rewrite !app_length, firstn_length, skipn_length. lia.
Qed.

Lemma sub_length : forall d pos n, (pos + n <= length d)%nat -> length (sub d pos n) = n.
Proof. intros. unfold sub. rewrite firstn_length, skipn_length. lia. Qed.

Lemma mem_read_eq : forall s b k d h pos n o,
  nth_error (bufs s) b = Some (mkBuf (Some k) (Z.of_nat (length d))) ->
  nth_error (blocks s) k = Some (mkBlock (Some d) h) ->
  0 <= pos -> 0 <= n -> pos + n <= Z.of_nat (length d) ->
  mem_read b pos n o s =
    Ret (sub d (Z.to_nat pos) (Z.to_nat n))
        (match o with None => s | Some i => add_event (Ev false b pos n i) s end).
Proof.
  intros s b k d h pos n o Hb Hk H1 H2 H3. unfold mem_read, block_of, bind, the_buf, note, ret. rewrite Hb. cbn.
  assert (E : (0 <=? pos) && (0 <=? n) && (pos + n <=? Z.of_nat (length d)) = true).
  { rewrite !andb_true_iff, !Z.leb_le. auto. }
  destruct o; unfold block_read; cbn; rewrite Hk, E; reflexivity.
Qed.

Definition written (s : st) (k : nat) (d : list Z) (h : bool) (pos : nat) (bs : list Z) : st :=
  set_blocks (upd k (mkBlock (Some (splice d pos bs)) h) (blocks s)) s.

Lemma mem_write_eq : forall s b k d h pos bs o,
  nth_error (bufs s) b = Some (mkBuf (Some k) (Z.of_nat (length d))) ->
  nth_error (blocks s) k = Some (mkBlock (Some d) h) ->
  0 <= pos -> pos + Z.of_nat (length bs) <= Z.of_nat (length d) ->
  mem_write b pos bs o s =
    Ret tt (written (match o with None => s | Some i => add_event (Ev true b pos (Z.of_nat (length bs)) i) s end)
                    k d h (Z.to_nat pos) bs).
Proof.
  intros s b k d h pos bs o Hb Hk H1 H3. unfold mem_write, block_of, bind, the_buf, note, ret. rewrite Hb. cbn.
  assert (E : (0 <=? pos) && (pos + Z.of_nat (length bs) <=? Z.of_nat (length d)) = true).
  { rewrite !andb_true_iff, !Z.leb_le. auto. }
  destruct o; unfold block_write; cbn; rewrite Hk, E; reflexivity.
Qed.

Lemma inv_written : forall s k d h pos bs, inv s ->
  nth_error (blocks s) k = Some (mkBlock (Some d) h) ->
  (pos + length bs <= length d)%nat -> inv (written s k d h pos bs).
Proof.
  intros s k d h pos bs [B S V L] Hk Hl. split; cbn; auto.
  intros b j n Hb. destruct (B b j n Hb) as (d' & h' & Hj & Hn). rewrite nth_upd.
  destruct (Nat.eqb_spec j k) as [->|E]; [|eauto].
  rewrite Hk in Hj |- *. injection Hj as <- <-. exists (splice d pos bs), h.
  split; auto. rewrite splice_length by lia. auto.
Qed.

Lemma live_data : forall s b k n, inv s -> live s b k n ->
  exists d h, nth_error (blocks s) k = Some (mkBlock (Some d) h) /\ Z.of_nat (length d) = n.
Proof. intros s b k n I. apply (i_buf s I). Qed.

Lemma safe_mem_read : forall s b k m pos n o, inv s -> live s b k m ->
  0 <= pos -> 0 <= n -> pos + n <= m -> covers s o b pos n ->
  safe (mem_read b pos n o) s (fun bs s' => length bs = Z.to_nat n /\ bufs s' = bufs s /\ views s' = views s /\ blocks s' = blocks s).
Proof.
  intros s b k m pos n o I Hb H1 H2 H3 C. destruct (live_data _ _ _ _ I Hb) as (d & h & Hk & <-).
  unfold safe. rewrite (mem_read_eq s b k d h pos n o); auto.
  assert (Hs : length (sub d (Z.to_nat pos) (Z.to_nat n)) = Z.to_nat n) by (apply sub_length; lia).
  destruct o as [i|]; cbn.
  - split; [apply inv_event; auto|]. 2: { split; [apply ext_same; auto|auto]. }
    cbn. destruct C as (v & Hv & E & A1 & A2). exists v. split; auto. unfold inside; cbn. auto.
  - split; auto. split; [apply ext_refl|auto].
Qed.

Lemma safe_mem_write : forall s b k m pos bs o, inv s -> live s b k m ->
  0 <= pos -> pos + Z.of_nat (length bs) <= m -> covers s o b pos (Z.of_nat (length bs)) ->
  safe (mem_write b pos bs o) s (fun _ s' => bufs s' = bufs s /\ views s' = views s).
Proof.
  intros s b k m pos bs o I Hb H1 H3 C. destruct (live_data _ _ _ _ I Hb) as (d & h & Hk & <-).
  unfold safe. rewrite (mem_write_eq s b k d h pos bs o); auto.
  assert (I' : inv (match o with None => s | Some i => add_event (Ev true b pos (Z.of_nat (length bs)) i) s end)).
  { destruct o as [i|]; auto. apply inv_event; auto. cbn. destruct C as (v & Hv & E & A1 & A2).
    exists v. split; auto. unfold inside; cbn. split; auto. lia. }
  split; [|split].
  - apply inv_written; auto; [destruct o; auto|]. lia.
  - destruct o; apply ext_same; auto.
  - destruct o; cbn; auto.
Qed.

Lemma safe_new_block : forall s size sh ok, inv s ->
  safe (data_block_new size sh ok) s (fun k s' => bufs s' = bufs s /\ views s' = views s /\ log s' = log s /\
     0 <= size < 2 ^ 53 /\ exists d, nth_error (blocks s') k = Some (mkBlock (Some d) sh) /\ Z.of_nat (length d) = size /\
     (forall j x, nth_error (blocks s) j = Some x -> nth_error (blocks s') j = Some x)).
Proof.
  intros s size sh ok I. unfold data_block_new.
  destruct ((size <? 0) || (2 ^ 53 <=? size) || negb ok) eqn:E; [apply safe_throw; auto|].
  rewrite !orb_false_iff, Z.ltb_ge, Z.leb_gt in E. destruct E as [[E1 E2] _].
  unfold safe. cbn. split; [|split].
  - destruct I as [B S V L]. split; cbn; auto. intros b k n Hb. destruct (B b k n Hb) as (d & h & Hk & Hn).
    exists d, h. split; auto. apply nth_snoc; auto.
  - apply ext_same; auto.
  - repeat split; auto. eexists. split; [apply nth_last|]. split; [rewrite repeat_length; lia|].
    intros. apply nth_snoc; auto.
Qed.

Lemma inv_new_buf : forall s k n d h, inv s -> 0 <= n < 2 ^ 53 ->
  nth_error (blocks s) k = Some (mkBlock (Some d) h) -> Z.of_nat (length d) = n ->
  inv (set_bufs (bufs s ++ [mkBuf (Some k) n]) s).
Proof.
  intros s k n d h [B S V L] H Hk Hd. split; cbn; auto.
  - intros b j m Hb. apply nth_snoc_inv in Hb. destruct Hb as [Hb|[_ Hb]]; [eauto|].
    injection Hb as -> ->. eauto.
  - intros b x Hb. apply nth_snoc_inv in Hb. destruct Hb as [Hb|[_ ->]]; [eauto|auto].
  - intros i v Hv. destruct (V i v Hv) as (W & x & Hx & Q). split; auto. exists x. split; auto. apply nth_snoc; auto.
Qed.

Lemma keeps_snoc : forall s x, keeps s (set_bufs (bufs s ++ [x]) s).
Proof. intros s x b y H. cbn. apply nth_snoc; auto. Qed.
Lemma keeps_ext : forall s s', keeps s s' -> views s' = views s -> ext s s'.
Proof. intros s s' K V. split; [rewrite V; auto|]. intros b x H. exists x. split; auto. Qed.

Definition ok_code (c : M Z) : Prop := forall s, inv s -> safe c s (fun _ _ => True).

(** A new array buffer: live, of the requested size, and different from all
    earlier ones. *)
Lemma safe_alloc : forall s proto len sh ok, inv s -> ok_code proto ->
  safe (allocate_array_buffer proto len sh ok) s
    (fun b s' => 0 <= len < 2 ^ 53 /\ exists k, live s' b k len).
Proof.
  intros s proto len sh ok I P. unfold allocate_array_buffer.
  eapply safe_bind; [apply P; auto|]. intros _ s1 I1 _ _.
  eapply safe_bind; [apply safe_new_block; auto|]. intros k s2 I2 _ (_ & _ & _ & Hs & d & Hk & Hd & _).
  unfold safe. split; [|split; [|split]]; auto.
  - eapply inv_new_buf; eauto.
  - apply keeps_ext; [apply keeps_snoc|reflexivity].
  - exists k. unfold live. cbn. apply nth_last.
Qed.

Lemma ok_no_user : ok_code no_user_code.
Proof. intros s I. apply safe_ret; auto. Qed.

(** ... without user code nothing else changes *)
Lemma safe_alloc_quiet : forall s len sh ok, inv s ->
  safe (allocate_array_buffer no_user_code len sh ok) s
    (fun b s' => 0 <= len < 2 ^ 53 /\ exists k, live s' b k len /\ keeps s s' /\ views s' = views s /\
       (length (bufs s) <= b)%nat /\ (length (blocks s) <= k)%nat /\
       (forall j x, nth_error (blocks s) j = Some x -> nth_error (blocks s') j = Some x)).
Proof.
  intros s len sh ok I. unfold allocate_array_buffer.
  eapply safe_bind; [apply (safe_ret _ 0 s (fun _ s' => s' = s)); auto|]. intros _ s1 I1 _ ->.
  unfold data_block_new.
  destruct ((len <? 0) || (2 ^ 53 <=? len) || negb ok) eqn:E.
  { eapply safe_bind with (Q1 := fun _ _ => False); [apply safe_throw; auto|tauto]. }
  rewrite !orb_false_iff, Z.ltb_ge, Z.leb_gt in E. destruct E as [[E1 E2] _].
  unfold safe, bind. cbn.
  assert (I2 : inv (set_blocks (blocks s ++ [mkBlock (Some (repeat 0 (Z.to_nat len))) sh]) s)).
  { destruct I as [B S V L]. split; cbn; auto. intros b k n Hb. destruct (B b k n Hb) as (d & h & Hk & Hn).
    exists d, h. split; auto. apply nth_snoc; auto. }
  split; [|split; [|split; [|exists (length (blocks s)); split; [|split; [|split; [|split; [|split]]]]]]]; auto; cbn.
  - exact (inv_new_buf _ _ len _ sh I2 (conj E1 E2) (nth_last _ _ _) ltac:(rewrite repeat_length; lia)).
  - apply keeps_ext; [|reflexivity]. intros b y H. cbn. apply nth_snoc; auto.
  - unfold live. cbn. apply nth_last.
  - intros b y H. cbn. apply nth_snoc; auto.
  - intros. apply nth_snoc; auto.
Qed.

Lemma inv_view : forall s v, inv s -> wf_view v ->
  (exists x, nth_error (bufs s) (vbuf v) = Some x /\ (db x <> None -> voff v + vbytes v <= blen x)) ->
  inv (add_view v s).
Proof.
  intros s v [B S V L] W H. split; cbn; auto.
  - intros i w Hw. apply nth_snoc_inv in Hw. destruct Hw as [Hw|[_ ->]]; [eapply V; eauto|auto].
  - intros e He. cbn in He. destruct (L e He) as (w & Hw & Q). exists w. split; auto. cbn. apply nth_snoc; auto.
Qed.
Lemma safe_new_view : forall s v, inv s -> wf_view v ->
  (exists x, nth_error (bufs s) (vbuf v) = Some x /\ (db x <> None -> voff v + vbytes v <= blen x)) ->
  safe (new_view v) s (fun i s' => nth_error (views s') (Z.to_nat i) = Some v).
Proof.
  intros s v I W H. unfold new_view, safe. split; [apply inv_view; auto|split].
  - split; cbn; [intros; apply nth_snoc; auto|eauto].
  - rewrite Nat2Z.id. cbn. apply nth_last.
Qed.

(** ** Arguments *)
Definition ok_arg (a : arg) : Prop := match a with Undef => True | Val c => ok_code c end.

Lemma ok_user : forall a, ok_arg a -> ok_code (user a).
Proof. intros [|c] H; cbn; auto. intros s I. apply safe_ret; auto. Qed.
Lemma safe_user : forall a s, ok_arg a -> inv s -> safe (user a) s (fun _ _ => True).
Proof. intros a s H. apply ok_user; auto. Qed.
Lemma safe_value : forall a s, ok_arg a -> inv s -> safe (to_value a) s (fun _ _ => True).
Proof. exact safe_user. Qed.

Lemma index_range : forall b z, rjs_to_index (Some b) = Some z -> 0 <= z < 2 ^ 53.
Proof.
  intros b z. unfold rjs_to_index. destruct (to_integer_or_infinity b) as [|n|]; try discriminate.
  destruct (n =? to_length (Fin n)) eqn:E; [|discriminate]. intros [= <-].
  unfold to_length. destruct (n <=? 0) eqn:F; [lia|]. apply Z.leb_gt in F.
  change (2 ^ 53) with 9007199254740992. lia.
Qed.

Lemma safe_to_index : forall a s, ok_arg a -> inv s -> safe (to_index a) s (fun z _ => 0 <= z < 2 ^ 53).
Proof.
  intros [|c] s H I; cbn [to_index].
  - apply safe_ret; auto. lia.
  - eapply safe_bind; [apply H; auto|]. intros b s1 I1 _ _.
    destruct (rjs_to_index (Some b)) as [z|] eqn:E; [|apply safe_throw; auto].
    apply safe_ret; auto. eapply index_range; eauto.
Qed.
Lemma safe_to_integer : forall a s, ok_arg a -> inv s -> safe (to_integer a) s (fun _ _ => True).
Proof.
  intros [|c] s H I; cbn [to_integer]; [apply safe_ret; auto|].
  eapply safe_bind; [apply H; auto|]. intros b s1 I1 _ _. apply safe_ret; auto.
Qed.
Lemma safe_to_end : forall a len s, ok_arg a -> inv s -> safe (to_end a len) s (fun _ _ => True).
Proof. intros [|c] len s H I; [apply safe_ret; auto|apply safe_to_integer; auto]. Qed.

(** ** Rounding *)
Lemma half_even_pos : forall a g, 0 <= a -> 0 < g -> a / g <= round_half_even a g.
Proof.
  intros a g H G. unfold round_half_even.
  destruct (2 * (a mod g) <? g); [lia|]. destruct (g <? 2 * (a mod g)); [lia|]. destruct (Z.even (a / g)); lia.
Qed.
Lemma rnd_id : forall z, - 2 ^ 53 < z < 2 ^ 53 -> rnd z = z.
Proof.
  intros z H. unfold rnd. destruct (Z.eq_dec z 0) as [->|N]; [reflexivity|].
  assert (Z.log2 (Z.abs z) < 53) by (apply Z.log2_lt_pow2; lia).
  rewrite (proj2 (Z.leb_le _ _)) by lia. reflexivity.
Qed.
Lemma rnd_neg : forall z, z <= 0 -> rnd z <= 0.
Proof.
  intros z H. unfold rnd. destruct (Z.log2 (Z.abs z) <=? 52) eqn:E; [auto|]. apply Z.leb_gt in E.
  destruct (Z.eq_dec z 0) as [->|N]; [cbn in E; lia|].
  rewrite Z.sgn_neg by lia.
  assert (G : 0 < 2 ^ (Z.log2 (Z.abs z) - 52)) by (apply Z.pow_pos_nonneg; lia).
  pose proof (half_even_pos (Z.abs z) _ (Z.abs_nonneg z) G).
  assert (0 <= Z.abs z / 2 ^ (Z.log2 (Z.abs z) - 52)) by (apply Z.div_pos; lia).
  nia.
Qed.
Lemma rnd_big : forall z, 2 ^ 53 <= z -> 2 ^ 53 <= rnd z.
Proof.
  intros z H. unfold rnd. rewrite Z.abs_eq by lia.
  assert (L : 53 <= Z.log2 z) by (apply Z.log2_le_pow2; lia).
  rewrite (proj2 (Z.leb_gt _ _)) by lia. rewrite Z.sgn_pos by lia. rewrite Z.mul_1_l.
  set (g := 2 ^ (Z.log2 z - 52)).
  assert (G : 0 < g) by (apply Z.pow_pos_nonneg; lia).
  pose proof (half_even_pos z g ltac:(lia) G).
  assert (P : 2 ^ 52 * g = 2 ^ Z.log2 z).
  { unfold g. rewrite <- Z.pow_add_r by lia. f_equal. lia. }
  assert (2 ^ 52 <= z / g).
  { apply Z.div_le_lower_bound; auto. rewrite Z.mul_comm, P. apply Z.log2_spec. lia. }
  assert (2 ^ 53 <= 2 ^ Z.log2 z) by (apply Z.pow_le_mono_r; lia).
  nia.
Qed.

Lemma rel_clamped : forall r len s, inv s -> 0 <= len < 2 ^ 53 ->
  relative r len s = Ret (clamped r len) s /\ 0 <= clamped r len <= len.
Proof.
  intros r len s I H. unfold relative, clamped, s64, ret. destruct r as [|z|]; [split; [auto|lia]| |split; [auto|lia]].
  destruct (z <? 0) eqn:E.
  - apply Z.ltb_lt in E.
    assert (R : Z.max (rnd (z + len)) 0 = Z.max 0 (len + z)).
    { destruct (Z.le_gt_cases (z + len) 0) as [L|L].
      - pose proof (rnd_neg _ L). lia.
      - rewrite rnd_id by lia. lia. }
    rewrite R. rewrite (proj2 (Z.leb_le _ _)) by lia. rewrite (proj2 (Z.ltb_lt _ _)) by lia. cbn [andb]. split; auto. lia.
  - apply Z.ltb_ge in E.
    rewrite (proj2 (Z.leb_le _ _)) by lia. rewrite (proj2 (Z.ltb_lt _ _)) by lia. cbn [andb]. split; auto. lia.
Qed.
Lemma safe_relative : forall r len s, inv s -> 0 <= len < 2 ^ 53 ->
  safe (relative r len) s (fun z s' => s' = s /\ z = clamped r len /\ 0 <= z <= len).
Proof.
  intros r len s I H. unfold safe. destruct (rel_clamped r len s I H) as [-> R]. auto using ext_refl.
Qed.
