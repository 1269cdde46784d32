(** Lemmas about position vectors, the job stack and the trees of patterns. *)
From Coq Require Import ZArith List Bool Arith Lia.
Import ListNotations.
From Verif Require Import RegModel RegSpec.
Local Open Scope nat_scope.

(** * induction over trees *)
Section tree.
  Variables (P : atom -> Prop) (Q : term -> Prop).
  Hypothesis Hchar : forall c, P (AChar c).
  Hypothesis Hall : P AAll.
  Hypothesis Hclass : forall n i, P (AClass n i).
  Hypothesis Hls : P ALineStart.
  Hypothesis Hle : P ALineEnd.
  Hypothesis Hb : P AWordB.
  Hypothesis HB : P ANotWordB.
  Hypothesis Hback : forall i, P (ABack i).
  Hypothesis Hname : forall i, P (AName i).
  Hypothesis Hpat : forall p, Forall (Forall Q) p -> P (APat p).
  Hypothesis Hgroup : forall i p, Forall (Forall Q) p -> P (AGroup i p).
  Hypothesis Hlook : forall a n p, Forall (Forall Q) p -> P (ALook a n p).
  Hypothesis Hterm : forall a mn mx gs ge g, P a -> Q (Term a mn mx gs ge g).
  Fixpoint atom_tree (a : atom) : P a :=
    let fix terms (l : list term) : Forall Q l :=
      match l with
      | [] => Forall_nil _
      | t :: r => Forall_cons t (term_tree t) (terms r)
      end in
    let fix alts (p : pattern) : Forall (Forall Q) p :=
      match p with
      | [] => Forall_nil _
      | l :: r => Forall_cons l (terms l) (alts r)
      end in
    match a with
    | AChar c => Hchar c
    | AAll => Hall
    | AClass n i => Hclass n i
    | ALineStart => Hls
    | ALineEnd => Hle
    | AWordB => Hb
    | ANotWordB => HB
    | ABack i => Hback i
    | AName i => Hname i
    | APat p => Hpat p (alts p)
    | AGroup i p => Hgroup i p (alts p)
    | ALook ah n p => Hlook ah n p (alts p)
    end
  with term_tree (t : term) : Q t :=
    match t with
    | Term a mn mx gs ge g => Hterm a mn mx gs ge g (atom_tree a)
    end.
  Lemma pat_tree : forall p : pattern, Forall (Forall Q) p.
  Proof.
    induction p as [|l p IH]; constructor; auto.
    induction l; constructor; auto. apply term_tree.
  Qed.
End tree.

(** * vectors *)
Lemma vset_length : forall v i x, length (vset v i x) = length v.
Proof. induction v; intros [|i] x; simpl; auto. Qed.
Lemma vget_vset : forall v i j x,
  vget (vset v i x) j = if (i =? j) && (i <? length v) then x else vget v j.
Proof.
  unfold vget. induction v as [|a v IH]; intros i j x.
  - destruct i; simpl; rewrite andb_false_r; reflexivity.
  - destruct i as [|i]; destruct j as [|j]; simpl; auto.
    rewrite IH. destruct (i =? j); auto.
Qed.
Lemma vget_out : forall v i, length v <= i -> vget v i = (-1)%Z.
Proof. intros. unfold vget. apply nth_overflow. auto. Qed.
Lemma vec_ext : forall v w, length v = length w -> (forall i, vget v i = vget w i) -> v = w.
Proof.
  unfold vget. induction v as [|a v IH]; intros [|b w] L H; simpl in *; try discriminate; auto.
  f_equal. - exact (H 0). - apply IH; [lia|]. intros i. exact (H (S i)).
Qed.
Lemma clear_aux : forall n gs v,
  length (fold_left (fun w i => vset (vset w (2 * i) (-1)) (2 * i + 1) (-1)%Z) (seq gs n) v) = length v /\
  forall i, vget (fold_left (fun w i => vset (vset w (2 * i) (-1)) (2 * i + 1) (-1)%Z) (seq gs n) v) i =
    if (2 * gs <=? i) && (i <? 2 * (gs + n)) then (-1)%Z else vget v i.
Proof.
  induction n as [|n IH]; intros gs v.
  - split; [reflexivity|]. intros i. cbn [seq fold_left].
    destruct (Nat.leb_spec (2 * gs) i); destruct (Nat.ltb_spec i (2 * (gs + 0))); cbn [andb]; auto; lia.
  - cbn [seq fold_left].
    destruct (IH (S gs) (vset (vset v (2 * gs) (-1)) (2 * gs + 1) (-1)%Z)) as [L G].
    split. { rewrite L, !vset_length. reflexivity. }
    intros i. rewrite G, !vget_vset, vset_length.
    destruct (Nat.leb_spec (2 * S gs) i); destruct (Nat.ltb_spec i (2 * (S gs + n)));
      destruct (Nat.leb_spec (2 * gs) i); destruct (Nat.ltb_spec i (2 * (gs + S n)));
      cbn [andb]; try lia; auto;
      destruct (Nat.eqb_spec (2 * gs + 1) i); destruct (Nat.eqb_spec (2 * gs) i);
      destruct (Nat.ltb_spec (2 * gs + 1) (length v)); destruct (Nat.ltb_spec (2 * gs) (length v));
      cbn [andb]; auto; try lia; subst; try (rewrite vget_out by lia; auto; fail).
Qed.
Lemma clear_vec_length : forall gs ge v, length (clear_vec gs ge v) = length v.
Proof. intros. unfold clear_vec. apply clear_aux. Qed.
Lemma vget_clear : forall gs ge v i,
  vget (clear_vec gs ge v) i =
  if (2 * gs <=? i) && (i <? 2 * ge) then (-1)%Z else vget v i.
Proof.
  intros. unfold clear_vec. rewrite (proj2 (clear_aux _ _ _)).
  destruct (Nat.leb_spec (2 * gs) i); cbn [andb]; auto.
  destruct (Nat.ltb_spec i (2 * (gs + (ge - gs)))); destruct (Nat.ltb_spec i (2 * ge)); auto; lia.
Qed.

(** equal except in the groups [gs..ge) *)
Definition sameout (gs ge : nat) (v w : list Z) : Prop :=
  length v = length w /\ forall i, i < 2 * gs \/ 2 * ge <= i -> vget v i = vget w i.
Definition unset (gs ge : nat) (v : list Z) : Prop :=
  forall i, 2 * gs <= i < 2 * ge -> vget v i = (-1)%Z.
Lemma sameout_refl : forall gs ge v, sameout gs ge v v.
Proof. split; auto. Qed.
Lemma sameout_sym : forall gs ge v w, sameout gs ge v w -> sameout gs ge w v.
Proof. intros gs ge v w [L H]. split; auto. intros i Hi. symmetry. auto. Qed.
Lemma sameout_trans : forall gs ge u v w, sameout gs ge u v -> sameout gs ge v w -> sameout gs ge u w.
Proof. intros gs ge u v w [L H] [L' H']. split; [congruence|]. intros i Hi. rewrite H, H'; auto. Qed.
Lemma sameout_wide : forall gs ge lo hi v w, lo <= gs -> ge <= hi -> sameout gs ge v w -> sameout lo hi v w.
Proof. intros gs ge lo hi v w A B [L H]. split; auto. intros i Hi. apply H. lia. Qed.
Lemma sameout_unset : forall gs ge a b v w, sameout gs ge v w -> unset a b v -> b <= gs \/ ge <= a -> unset a b w.
Proof. intros gs ge a b v w [L H] U D i Hi. rewrite <- H by lia. auto. Qed.
Lemma unset_sub : forall gs ge a b v, unset gs ge v -> gs <= a -> b <= ge -> unset a b v.
Proof. intros gs ge a b v U A B i Hi. apply U. lia. Qed.
Lemma sameout_clear : forall gs ge v, sameout gs ge v (clear_vec gs ge v).
Proof.
  intros. split. { rewrite clear_vec_length. auto. }
  intros i Hi. rewrite vget_clear.
  destruct (Nat.leb_spec (2 * gs) i); destruct (Nat.ltb_spec i (2 * ge)); cbn [andb]; auto; lia.
Qed.
Lemma unset_clear : forall gs ge v, unset gs ge (clear_vec gs ge v).
Proof.
  intros gs ge v i Hi. rewrite vget_clear.
  destruct (Nat.leb_spec (2 * gs) i); destruct (Nat.ltb_spec i (2 * ge)); cbn [andb]; auto; lia.
Qed.
(** clearing brings an unset part back *)
Lemma clear_back : forall gs ge v w, unset gs ge v -> sameout gs ge v w -> clear_vec gs ge w = v.
Proof.
  intros gs ge v w U [L H]. apply vec_ext. { rewrite clear_vec_length. auto. }
  intros i. rewrite vget_clear.
  destruct (Nat.leb_spec (2 * gs) i); destruct (Nat.ltb_spec i (2 * ge)); cbn [andb];
    try (symmetry; apply H; lia).
  symmetry. apply U. lia.
Qed.

(** * the stack *)
Lemma pop_last_snoc : forall l j, pop_last (l ++ [j]) = Some (l, j).
Proof.
  induction l as [|a l IH]; intros j; simpl; auto.
  rewrite IH. destruct (l ++ [j]) eqn:E; auto. destruct l; discriminate.
Qed.
Lemma nth_snoc : forall (l : list job) j r, nth_error ((l ++ [j]) ++ r) (length l) = Some j.
Proof.
  intros. rewrite <- app_assoc. rewrite nth_error_app2, Nat.sub_diag by lia. reflexivity.
Qed.
Definition is_choice (j : job) : bool := match job_vsp j with Some _ => true | None => false end.
(** the items of the vector stack in use under the jobs *)
Definition vcount (len : nat) (js : list job) : nat := len * length (filter is_choice js).
Lemma vcount_app : forall len a b, vcount len (a ++ b) = vcount len a + vcount len b.
Proof. intros. unfold vcount. rewrite filter_app, app_length. lia. Qed.
(** each saved vector is where the stack was when it was pushed *)
Definition vsps (len : nat) (js : list job) : Prop :=
  forall a j b v, js = a ++ j :: b -> job_vsp j = Some v -> v = vcount len a.
Lemma vsps_app : forall len a b, vsps len (a ++ b) -> vsps len a.
Proof.
  intros len a b H x j y v E J. apply (H x j (y ++ b) v); auto.
  rewrite E, <- app_assoc. reflexivity.
Qed.
Lemma vsps_snoc : forall len a j, vsps len a ->
  (forall v, job_vsp j = Some v -> v = vcount len a) -> vsps len (a ++ [j]).
Proof.
  intros len a j H J x j' y v E V.
  destruct (list_eq_dec Nat.eq_dec (map (fun _ => 0) y) []) as [Ey|Ny].
  - destruct y; [|discriminate]. apply app_inj_tail in E. destruct E as [-> ->]. auto.
  - destruct (exists_last (l := y)) as [y' [z Ez]]. { intro; subst; apply Ny; reflexivity. }
    subst y. rewrite app_comm_cons, app_assoc in E. apply app_inj_tail in E. destruct E as [-> ->].
    apply (H x j' y' v); auto.
Qed.

(** * memory *)
Definition agree (n : nat) (m m' : list Z) : Prop := firstn n m = firstn n m'.
Lemma agree_refl : forall n m, agree n m m.
Proof. reflexivity. Qed.
Lemma agree_trans : forall n a b c, agree n a b -> agree n b c -> agree n a c.
Proof. unfold agree; intros; congruence. Qed.
Lemma agree_sym : forall n a b, agree n a b -> agree n b a.
Proof. unfold agree; auto. Qed.
Lemma agree_less : forall n k a b, k <= n -> agree n a b -> agree k a b.
Proof.
  unfold agree. intros n k a b L H.
  replace k with (Nat.min k n) by lia. rewrite <- !firstn_firstn. congruence.
Qed.
Lemma agree_save : forall n m v, n <= length m -> agree n m (save m n v).
Proof.
  unfold agree, save. intros. rewrite firstn_app, firstn_firstn, Nat.min_id.
  rewrite firstn_length, Nat.min_l by lia. rewrite Nat.sub_diag. simpl. rewrite app_nil_r. reflexivity.
Qed.
Lemma save_length : forall n m v, n <= length m -> n + length v <= length (save m n v).
Proof. unfold save. intros. rewrite !app_length, firstn_length. lia. Qed.
Lemma restore_save : forall n m v m', n <= length m ->
  agree (n + length v) (save m n v) m' -> n + length v <= length m' ->
  restore m' n (length v) = Some v.
Proof.
  unfold restore, agree. intros n m v m' L A L'.
  destruct (Nat.leb_spec (n + length v) (length m')); [|lia]. f_equal.
  rewrite firstn_skipn_comm. rewrite <- A. unfold save.
  rewrite firstn_app, firstn_firstn, firstn_length.
  replace (Nat.min n (length m)) with n by lia.
  replace (Nat.min (n + length v) n) with n by lia.
  replace (n + length v - n) with (length v) by lia.
  rewrite firstn_app, Nat.sub_diag. cbn [firstn]. rewrite app_nil_r, firstn_all.
  rewrite skipn_app, firstn_length. replace (Nat.min n (length m)) with n by lia.
  rewrite Nat.sub_diag. cbn [skipn]. rewrite skipn_all2. { reflexivity. }
  rewrite firstn_length. lia.
Qed.

(** * numbering *)
Lemma num_terms_none : forall l, num_terms l None = None.
Proof. induction l; simpl; auto. Qed.
Lemma num_pat_none : forall p, num_pat p None = None.
Proof. induction p; simpl; auto. rewrite num_terms_none. auto. Qed.
Lemma num_terms_app : forall a b o, num_terms (a ++ b) o = num_terms b (num_terms a o).
Proof. intros. unfold num_terms. apply fold_left_app. Qed.
Definition numbered_mono (g g' : nat) : Prop := g <= g'.
Lemma num_term_le : forall t g g', num_term t g = Some g' -> g <= g'.
Proof.
  apply (term_tree (fun a => forall g g', num_atom a g = Some g' -> g <= g')
                   (fun t => forall g g', num_term t g = Some g' -> g <= g'));
    try (intros; simpl in *; congruence); try (intros; simpl in H; injection H; lia).
  { intros i g g' H. simpl in H. destruct (i <? 0)%Z; [discriminate|injection H; lia]. }
  1-3: assert (A : forall p, Forall (Forall (fun t => forall g g', num_term t g = Some g' -> g <= g')) p ->
      forall g g', num_pat p (Some g) = Some g' -> g <= g').
  1,3,5: induction p as [|l p IH]; intros F g g' H; [injection H; lia|];
    inversion F as [|? ? Fl Fp]; subst; cbn [num_pat fold_left] in H; fold (num_pat p (num_terms l (Some g))) in H;
    destruct (num_terms l (Some g)) as [g1|] eqn:E1; [|rewrite num_pat_none in H; discriminate];
    apply IH in H; auto; enough (g <= g1) by lia; clear H IH F Fp;
    revert g g1 E1; induction Fl as [|t l Ht Fl IHl]; intros g g1 E1; [injection E1; lia|];
    cbn [num_terms fold_left] in E1; fold (num_terms l (num_term t g)) in E1;
    destruct (num_term t g) as [g2|] eqn:E2; [|rewrite num_terms_none in E1; discriminate];
    apply Ht in E2; apply IHl in E1; lia.
  - intros p F g g' H. apply (A p F g g' H).
  - intros i p F g g' H. simpl in H. destruct (i =? g); [|discriminate].
    apply (A p F (S g) g') in H. lia.
  - intros a n p F g g' H. apply (A p F g g' H).
  - intros a mn mx gs ge g Ha h h' H. simpl in H.
    destruct ((gs =? h) && _); [|discriminate]. destruct (num_atom a h) as [q|] eqn:Eq; [|discriminate].
    destruct (q =? ge); [|discriminate]. injection H as <-. auto.
Qed.
Lemma num_terms_cons : forall t l g g', num_terms (t :: l) (Some g) = Some g' ->
  exists h, num_term t g = Some h /\ num_terms l (Some h) = Some g'.
Proof.
  intros t l g g' H. cbn [num_terms fold_left] in H. fold (num_terms l (num_term t g)) in H.
  destruct (num_term t g) as [h|]; [|rewrite num_terms_none in H; discriminate]. eauto.
Qed.
Lemma num_terms_snoc : forall t l g g', num_terms (l ++ [t]) (Some g) = Some g' ->
  exists h, num_terms l (Some g) = Some h /\ num_term t h = Some g'.
Proof.
  intros t l g g' H. rewrite num_terms_app in H.
  destruct (num_terms l (Some g)) as [h|]; [|discriminate]. exists h. split; auto.
Qed.
Lemma num_pat_cons : forall l p g g', num_pat (l :: p) (Some g) = Some g' ->
  exists h, num_terms l (Some g) = Some h /\ num_pat p (Some h) = Some g'.
Proof.
  intros l p g g' H. cbn [num_pat fold_left] in H. fold (num_pat p (num_terms l (Some g))) in H.
  destruct (num_terms l (Some g)) as [h|]; [|rewrite num_pat_none in H; discriminate]. eauto.
Qed.
Lemma num_terms_le : forall l g g', num_terms l (Some g) = Some g' -> g <= g'.
Proof.
  induction l as [|t l IH]; intros g g' H. { injection H; lia. }
  apply num_terms_cons in H. destruct H as (h & A & B). apply num_term_le in A. apply IH in B. lia.
Qed.
Lemma num_pat_le : forall p g g', num_pat p (Some g) = Some g' -> g <= g'.
Proof.
  induction p as [|l p IH]; intros g g' H. { injection H; lia. }
  apply num_pat_cons in H. destruct H as (h & A & B). apply num_terms_le in A. apply IH in B. lia.
Qed.
