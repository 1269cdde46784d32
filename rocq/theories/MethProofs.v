(** The methods of Array.prototype: the code does what the standard says. *)
From Coq Require Import List ZArith Bool Lia.
From Verif Require Import MethModel MethSpec.
Import ListNotations.
Local Open Scope Z_scope.

Definition eqm {W A} (m m' : M W A) : Prop := forall s, m s = m' s.
Infix "==" := eqm (at level 70).

Lemma eqm_refl {W A} (m : M W A) : m == m.
Proof. intro s; reflexivity. Qed.
Lemma eqm_trans {W A} (a b c : M W A) : a == b -> b == c -> a == c.
Proof. intros H K s; rewrite H; apply K. Qed.
Lemma eqm_sym {W A} (a b : M W A) : a == b -> b == a.
Proof. intros H s; symmetry; apply H. Qed.
Lemma bind_ext {W A B} (m m' : M W A) (f f' : A -> M W B) :
  m == m' -> (forall a, f a == f' a) -> bind m f == bind m' f'.
Proof.
  intros Hm Hf s. unfold bind. rewrite Hm. destruct (m' s) as [s' [a|e| |]]; auto. apply Hf.
Qed.
Lemma bind_same {W A B} (m : M W A) (f f' : A -> M W B) :
  (forall a, f a == f' a) -> bind m f == bind m f'.
Proof. intro H; apply bind_ext; [apply eqm_refl|exact H]. Qed.
(** with what is known of the answer *)
Lemma bind_post {W A B} (P : A -> Prop) (m : M W A) (f f' : A -> M W B) :
  (forall s s' a, m s = (s', Ok a) -> P a) -> (forall a, P a -> f a == f' a) -> bind m f == bind m f'.
Proof.
  intros Hm Hf s. unfold bind. destruct (m s) as [s' [a|e| |]] eqn:E; auto. apply Hf. eapply Hm; eauto.
Qed.
Lemma bind_assoc {W A B C} (m : M W A) (f : A -> M W B) (g : B -> M W C) :
  bind (bind m f) g == bind m (fun a => bind (f a) g).
Proof. intro s; unfold bind; destruct (m s) as [s' [a|e| |]]; auto. Qed.
Lemma bind_at {W A B} (m : M W A) (f : A -> M W B) s :
  bind m f s = match m s with (s, Ok a) => f a s | (s, Throw e) => (s, Throw e) | (s, Bad) => (s, Bad) | (s, Deep) => (s, Deep) end.
Proof. reflexivity. Qed.
Lemma bind_ret_l {W A B} (a : A) (f : A -> M W B) : bind (ret a) f == f a.
Proof. intro s; reflexivity. Qed.
Lemma bind_map {W A B C} (m : M W A) (g : A -> B) (f : B -> M W C) (h : A -> M W C) :
  (forall a, f (g a) == h a) -> bind (bind m (fun a => ret (g a))) f == bind m h.
Proof. intros H s; unfold bind, ret; destruct (m s) as [s' [a|e| |]]; try reflexivity. apply H. Qed.
Lemma bind_ret_r {W A} (m : M W A) : bind m ret == m.
Proof. intro s; unfold bind; destruct (m s) as [s' [a|e| |]]; auto. Qed.
Lemma bind_throw {W A B} (e : exn) (f : A -> M W B) : bind (throw e) f == throw e.
Proof. intro s; reflexivity. Qed.

(** all cases of small programs *)
Ltac brute :=
  let s := fresh "s" in
  intro s; unfold bind, ret, throw, bad, deep, next, leave;
  repeat match goal with
         | |- context [match ?x with _ => _ end] =>
             lazymatch x with context [match _ with _ => _ end] => fail | _ => destruct x eqn:?; try discriminate end
         end;
  try reflexivity; try congruence.

Lemma ret_at {W A} (a : A) (s : W) : ret a s = (s, Ok a).
Proof. reflexivity. Qed.
Ltac go := repeat (progress (rewrite ?bind_at, ?ret_at; cbv beta iota)).

(** *** Lists of indices *)
Fixpoint steps (n : nat) (a d : Z) : list Z :=
  match n with O => [] | Datatypes.S n => a :: steps n (a + d) d end.
Lemma steps_up n a : steps n a 1 = map (fun i => a + Z.of_nat i) (seq 0 n).
Proof.
  revert a; induction n; intro a; cbn [steps seq map]; [reflexivity|].
  rewrite IHn. f_equal; [lia|]. rewrite <- seq_shift, map_map. apply map_ext; intro; lia.
Qed.
Lemma up_steps a b : up a b = steps (Z.to_nat (b - a)) a 1.
Proof. unfold up. rewrite steps_up. reflexivity. Qed.
Lemma steps_snoc n a d : steps (Datatypes.S n) a d = steps n a d ++ [a + d * Z.of_nat n].
Proof.
  revert a; induction n; intro a; [cbn; f_equal; ring|].
  change (steps (Datatypes.S (Datatypes.S n)) a d) with (a :: steps (Datatypes.S n) (a + d) d).
  rewrite IHn. cbn [steps app].
  replace (a + d + d * Z.of_nat n) with (a + d * Z.of_nat (Datatypes.S n)) by (rewrite Nat2Z.inj_succ; ring). reflexivity.
Qed.
Lemma rev_steps n a : rev (steps n a 1) = steps n (a + Z.of_nat n - 1) (-1).
Proof.
  revert a; induction n; intro a; [reflexivity|].
  rewrite steps_snoc, rev_app_distr, IHn. cbn [rev app steps]. f_equal; [lia|]. f_equal. lia.
Qed.
Lemma down_steps a b : down a b = steps (Z.to_nat (b - a)) (a + Z.of_nat (Z.to_nat (b - a)) - 1) (-1).
Proof. unfold down. rewrite up_steps. apply rev_steps. Qed.
Lemma down_steps' a b : a <= b -> down a b = steps (Z.to_nat (b - a)) (b - 1) (-1).
Proof. intro H. rewrite down_steps. f_equal. lia. Qed.
Lemma steps_shift n a d c : steps n (a + c) d = map (fun k => k + c) (steps n a d).
Proof.
  revert a; induction n; intro a; [reflexivity|]. cbn [steps map]. f_equal. rewrite <- IHn. f_equal. lia.
Qed.

(** *** Loops *)
Section L.
Context {W S T R : Type}.

Lemma loop__each (d : Z) (rep : Z -> T -> S) (body : S -> M W S) (f : Z -> T -> M W T) n :
  forall a t,
  (forall i t, 0 <= i < Z.of_nat n ->
     body (rep (a + d * i) t) == bind (f (a + d * i) t) (fun t' => ret (rep (a + d * i + d) t'))) ->
  loop_ n body (rep a t) == bind (each (steps n a d) f t) (fun t' => ret (rep (a + d * Z.of_nat n) t')).
Proof.
  induction n; intros a t H.
  - cbn [steps each]. intro s. unfold loop_, loop, bind, ret, next.
    replace (a + d * Z.of_nat 0) with a by (cbn; ring). reflexivity.
  - assert (H0 := H 0 t ltac:(lia)). replace (a + d * 0) with a in H0 by ring.
    assert (IH : forall t, loop_ n body (rep (a + d) t) ==
              bind (each (steps n (a + d) d) f t) (fun t' => ret (rep (a + d * Z.of_nat (Datatypes.S n)) t'))).
    { intro t1. replace (a + d * Z.of_nat (Datatypes.S n)) with (a + d + d * Z.of_nat n) by (rewrite Nat2Z.inj_succ; ring).
      apply IHn. intros i t2 Hi. replace (a + d + d * i) with (a + d * (i + 1)) by ring. apply H; lia. }
    clear IHn H. cbn [steps each]. intro s. unfold loop_ in *. cbn [loop].
    specialize (H0 s). unfold bind, next in *. rewrite H0.
    destruct (f a t s) as [s' [t'|e| |]]; cbn [ret]; try reflexivity.
    specialize (IH t' s'). unfold ret in *. rewrite <- IH. reflexivity.
Qed.

Lemma loop_first (d : Z) (body : Z -> M W (Z + R)) (f : Z -> M W (option R)) n :
  forall a,
  (forall i, 0 <= i < Z.of_nat n ->
     body (a + d * i) == bind (f (a + d * i)) (fun r => match r with Some x => leave x | None => next (a + d * i + d) end)) ->
  loop n body a == bind (first (steps n a d) f) (fun r => match r with Some x => leave x | None => next (a + d * Z.of_nat n) end).
Proof.
  induction n; intros a H.
  - cbn [steps first]. intro s. unfold loop, bind, ret, next.
    replace (a + d * Z.of_nat 0) with a by (cbn; ring). reflexivity.
  - assert (H0 := H 0 ltac:(lia)). replace (a + d * 0) with a in H0 by ring.
    assert (IH : loop n body (a + d) ==
              bind (first (steps n (a + d) d) f) (fun r => match r with Some x => leave x | None => next (a + d * Z.of_nat (Datatypes.S n)) end)).
    { replace (a + d * Z.of_nat (Datatypes.S n)) with (a + d + d * Z.of_nat n) by (rewrite Nat2Z.inj_succ; ring).
      apply IHn. intros i Hi. replace (a + d + d * i) with (a + d * (i + 1)) by ring. apply H; lia. }
    clear IHn H. cbn [steps first loop]. intro s. specialize (H0 s). unfold bind in *. rewrite H0.
    destruct (f a s) as [s' [[x|]|e| |]]; cbn [ret]; try reflexivity.
    unfold next, ret. rewrite (IH s'). reflexivity.
Qed.
End L.

Lemma loop__ext {W S} (b b' : S -> M W S) n : (forall x, b x == b' x) -> forall s, loop_ n b s == loop_ n b' s.
Proof.
  intros H. unfold loop_. induction n; intro s; [apply eqm_refl|]. cbn [loop]. intro st.
  unfold bind, next, ret in *. rewrite (H s st). destruct (b' s st) as [st' [s'|e| |]]; try reflexivity. apply (IHn s' st').
Qed.
Lemma loop_up {W T} (body : Z * T -> M W (Z * T)) f a b t :
  (forall k t, a <= k < b -> body (k, t) == bind (f k t) (fun t' => ret (k + 1, t'))) ->
  loop_ (rounds a b) body (a, t) == bind (each (up a b) f t) (fun t' => ret (a + Z.of_nat (rounds a b), t')).
Proof.
  intro H. rewrite up_steps. fold (rounds a b).
  pose proof (loop__each (W := W) 1 (fun k t => (k, t)) body f (rounds a b) a t) as L.
  eapply eqm_trans; [apply L|].
  - intros i t0 Hi. unfold rounds in Hi. replace (a + 1 * i) with (a + i) by lia. apply H. lia.
  - replace (a + 1 * Z.of_nat (rounds a b)) with (a + Z.of_nat (rounds a b)) by lia. apply eqm_refl.
Qed.
Lemma loop_up_ {W} (body : Z -> M W Z) f a b :
  (forall k, a <= k < b -> body k == bind (f k) (fun _ => ret (k + 1))) ->
  loop_ (rounds a b) body a == bind (each_ (up a b) f) (fun _ => ret (a + Z.of_nat (rounds a b))).
Proof.
  intro H. unfold each_. rewrite up_steps. fold (rounds a b).
  pose proof (loop__each (W := W) (T := unit) 1 (fun k _ => k) body (fun k _ => f k) (rounds a b) a tt) as L.
  eapply eqm_trans; [apply L|].
  - intros i t0 Hi. unfold rounds in Hi. replace (a + 1 * i) with (a + i) by lia. apply H. lia.
  - replace (a + 1 * Z.of_nat (rounds a b)) with (a + Z.of_nat (rounds a b)) by lia. apply eqm_refl.
Qed.
Lemma loop_up_first {W R} (body : Z -> M W (Z + R)) f (g : R) a b :
  (forall k, a <= k < b -> body k == bind (f k) (fun r => match r with Some x => leave x | None => next (k + 1) end)) ->
  bind (loop (rounds a b) body a) (fun r => after r (fun _ => ret g)) == or_else g (first (up a b) f).
Proof.
  intro H. rewrite up_steps. fold (rounds a b).
  pose proof (loop_first (W := W) 1 body f (rounds a b) a) as L.
  intro s. unfold or_else, bind at 1. rewrite L.
  - unfold bind. destruct (first _ _ s) as [s' [[x|]|e| |]]; reflexivity.
  - intros i Hi. unfold rounds in Hi. replace (a + 1 * i) with (a + i) by lia. apply H. lia.
Qed.

Lemma loop_rep {W S} (d : Z) (rep : Z -> S) (body : S -> M W S) (f : Z -> M W unit) n a :
  (forall i, 0 <= i < Z.of_nat n -> body (rep (a + d * i)) == bind (f (a + d * i)) (fun _ => ret (rep (a + d * i + d)))) ->
  loop_ n body (rep a) == bind (each_ (steps n a d) f) (fun _ => ret (rep (a + d * Z.of_nat n))).
Proof.
  intro H. unfold each_.
  apply (loop__each (T := unit) d (fun k _ => rep k) body (fun k _ => f k) n a tt).
  intros i t Hi. apply H; exact Hi.
Qed.
Lemma each_ext {W S} ks (f f' : Z -> S -> M W S) : (forall k, In k ks -> forall s, f k s == f' k s) -> forall s, each ks f s == each ks f' s.
Proof.
  induction ks as [|k ks IH]; intros H s; [apply eqm_refl|]. cbn [each].
  apply bind_ext; [apply H; left; reflexivity|]. intro s'. apply IH. intros j Hj. apply H; right; exact Hj.
Qed.
Lemma each__ext {W} ks (f f' : Z -> M W unit) : (forall k, In k ks -> f k == f' k) -> each_ ks f == each_ ks f'.
Proof. intro H. apply each_ext. intros k Hk _. apply H; exact Hk. Qed.
Lemma each_map {W S} (g : Z -> Z) ks (f : Z -> S -> M W S) : forall s, each (map g ks) f s == each ks (fun k => f (g k)) s.
Proof.
  induction ks as [|k ks IH]; intro s; [apply eqm_refl|]. cbn [map each]. apply bind_same; intro s'. apply IH.
Qed.
Lemma each_forget {W T B} ks (f : Z -> T -> M W T) (f' : Z -> M W unit) (m : M W B) :
  (forall k t, bind (f k t) (fun _ => ret tt) == f' k) ->
  forall t, bind (each ks f t) (fun _ => m) == bind (each_ ks f') (fun _ => m).
Proof.
  intro H. induction ks as [|k ks IH]; intro t; [apply eqm_refl|]. unfold each_ in *. cbn [each].
  eapply eqm_trans; [apply bind_assoc|]. eapply eqm_trans; [|apply eqm_sym; apply bind_assoc].
  intro s. rewrite (bind_at (f k t)), (bind_at (f' k)). specialize (H k t s). unfold bind, ret in H. rewrite <- H.
  destruct (f k t s) as [s' [t'|e| |]]; try reflexivity. apply IH.
Qed.
(** leaving out the counter that a loop gives back *)
Lemma loop_up_bind {W B} (body : Z -> M W Z) f a b (m : M W B) :
  (forall k, a <= k < b -> body k == bind (f k) (fun _ => ret (k + 1))) ->
  bind (loop_ (rounds a b) body a) (fun _ => m) == bind (each_ (up a b) f) (fun _ => m).
Proof.
  intro H. eapply eqm_trans; [apply bind_ext; [apply loop_up_; exact H|intro; apply eqm_refl]|].
  apply bind_map; intro; apply eqm_refl.
Qed.

(** *** Numbers *)
Lemma max_limit : max_int = limit.
Proof. reflexivity. Qed.
Lemma rnd_small x : - limit <= x <= limit -> rnd x = x.
Proof.
  intro H. unfold limit in H. unfold rnd.
  destruct (Z.ltb_spec (Z.abs x) 9007199254740992) as [L|L]; [reflexivity|lia].
Qed.
Lemma rnd_parts x : 9007199254740992 <= Z.abs x ->
  exists m, rnd x = Z.sgn x * m /\ 0 < m <= 2 ^ (Z.log2 (Z.abs x) + 1) /\ (Z.abs x = 2 ^ Z.log2 (Z.abs x) -> m = Z.abs x).
Proof.
  intro H. unfold rnd. destruct (Z.ltb_spec (Z.abs x) 9007199254740992) as [L|L]; [lia|].
  set (a := Z.abs x) in *. set (l := Z.log2 a).
  assert (La : 53 <= l).
  { unfold l. change 53 with (Z.log2 9007199254740992). apply Z.log2_le_mono. exact H. }
  destruct (Z.log2_spec a ltac:(lia)) as [Lo Hi]. fold l in Lo, Hi.
  set (u := 2 ^ (l - 52)). assert (Hu : 0 < u) by (apply Z.pow_pos_nonneg; lia).
  assert (Eu : 2 ^ l = 4503599627370496 * u).
  { unfold u. replace l with (52 + (l - 52)) at 1 by lia. rewrite Z.pow_add_r by lia. reflexivity. }
  assert (Eu' : 2 ^ (l + 1) = 9007199254740992 * u).
  { replace (l + 1) with (1 + l) by lia. rewrite Z.pow_add_r, Eu by lia. lia. }
  replace (Z.succ l) with (l + 1) in Hi by lia.
  set (q := a / u). set (r := a mod u).
  assert (Da : a = u * q + r) by (apply Z.div_mod; lia).
  assert (Hr : 0 <= r < u) by (apply Z.mod_pos_bound; lia).
  assert (Hq : 4503599627370496 <= q < 9007199254740992) by nia.
  eexists; split; [reflexivity|]. split.
  - destruct ((2 * r <? u) || (2 * r =? u) && Z.even q); rewrite Eu'; nia.
  - intro P. rewrite Eu in P. assert (q = 4503599627370496 /\ r = 0) as [Q0 R0] by nia.
    replace (2 * r <? u) with true by (symmetry; apply Z.ltb_lt; lia). cbn [orb]. nia.
Qed.
Lemma rnd_neg x : x < 0 -> rnd x < 0.
Proof.
  intro H. destruct (Z.ltb_spec (Z.abs x) 9007199254740992) as [L|L].
  - rewrite rnd_small; unfold limit; lia.
  - destruct (rnd_parts x L) as (m & -> & [Hm _] & _). rewrite Z.sgn_neg by lia. lia.
Qed.
Lemma rnd_low x : - 2 ^ 63 <= x -> x < 0 -> - 2 ^ 63 <= rnd x.
Proof.
  intros H Hx. destruct (Z.ltb_spec (Z.abs x) 9007199254740992) as [L|L].
  - rewrite rnd_small; unfold limit; lia.
  - destruct (rnd_parts x L) as (m & -> & [Hm Hm'] & He). rewrite Z.sgn_neg by lia.
    assert (C : Z.log2 (Z.abs x) <= 62 \/ Z.abs x = 2 ^ 63).
    { destruct (Z.eq_dec (Z.abs x) (2 ^ 63)) as [->|N]; [right; reflexivity|left].
      assert (Z.log2 (Z.abs x) < 63); [|lia]. apply Z.log2_lt_pow2; lia. }
    destruct C as [C|C].
    + assert (2 ^ (Z.log2 (Z.abs x) + 1) <= 2 ^ 63); [|lia]. apply Z.pow_le_mono_r; lia.
    + rewrite He, C; [lia|]. rewrite C. reflexivity.
Qed.
Lemma dadd_low len z : 0 <= len <= limit -> z < 0 ->
  (0 <= len + z -> dadd len (Fin z) = Fin (len + z)) /\ (len + z < 0 -> exists y, dadd len (Fin z) = Fin y /\ y < 0 /\ (- 2 ^ 63 <= z -> - 2 ^ 63 <= y)).
Proof.
  intros H Hz. unfold dadd. split.
  - intro K. rewrite rnd_small; [reflexivity|]. unfold limit in *; lia.
  - intro K. eexists; split; [reflexivity|]. split; [apply rnd_neg; exact K|].
    intro L. apply rnd_low; lia.
Qed.
Lemma to_i64_fin {W} z : - 2 ^ 63 <= z < 2 ^ 63 -> @to_i64 W (Fin z) == ret z.
Proof.
  intros H s. unfold to_i64.
  destruct (Z.leb_spec (-9223372036854775808) z); [|lia]. destruct (Z.ltb_spec z 9223372036854775808); [|lia]. reflexivity.
Qed.

Local Opaque rnd limit max_int.

Section M.
Variable w : world.
Notation M := (M (W w)).
Hypothesis LF : lengths_fit w.

Lemma limit_val : limit = 9007199254740991. Proof. reflexivity. Qed.
Lemma clamp_relative x len : 0 <= len <= limit -> clamp w x len == ret (relative x len).
Proof.
  intros H. pose proof limit_val as LV. unfold clamp. destruct x as [z| |]; cbn [is_ninf dneg].
  - unfold relative. destruct (Z.ltb_spec z 0) as [Hz|Hz].
    + destruct (dadd_low len z H Hz) as [A B]. destruct (Z.ltb_spec (len + z) 0) as [K|K].
      * destruct (B K) as (y & -> & Hy & _). unfold dmax. destruct (Z.ltb_spec 0 y); [lia|].
        rewrite Z.max_l by lia. apply to_i64_fin; lia.
      * rewrite (A K). unfold dmax. destruct (Z.ltb_spec 0 (len + z)).
        { rewrite Z.max_r by lia. apply to_i64_fin; lia. }
        { rewrite Z.max_l by lia. apply to_i64_fin; lia. }
    + unfold dmin. destruct (Z.ltb_spec z len).
      * rewrite Z.min_l by lia. apply to_i64_fin; lia.
      * rewrite Z.min_r by lia. apply to_i64_fin; lia.
  - cbn. apply to_i64_fin; lia.
  - apply eqm_refl.
Qed.
Lemma relative_range x len : 0 <= len -> 0 <= relative x len <= len.
Proof. intro H. unfold relative. destruct x; try lia. destruct (z <? 0) eqn:?; lia. Qed.

(** the common start *)
Lemma open_ext (this : val) {A} (f f' : val -> Z -> M A) :
  (forall o len, 0 <= len <= limit -> f o len == f' o len) ->
  (o <- to_object w this ;; len <- len_of w o ;; f o len) == open w this f'.
Proof.
  intro H. unfold open. apply bind_same; intro o.
  apply bind_post with (P := fun n => 0 <= n <= limit); [intros s s' n E; eapply LF; exact E|]. intros n Hn. apply H; exact Hn.
Qed.
Lemma callable_ext v {A} (m m' : M A) : m == m' -> (if negb (callable w v) then throw TypeError else m) == need_callable w v m'.
Proof. intro H. unfold need_callable. destruct (callable w v); [exact H|apply eqm_refl]. Qed.
Lemma clamp_bind x len {A} (f : Z -> M A) : 0 <= len <= limit -> bind (clamp w x len) f == f (relative x len).
Proof. intros H s. unfold bind. rewrite (clamp_relative x len H). reflexivity. Qed.
Lemma end_ext v len {A} (f f' : Z -> M A) : 0 <= len <= limit ->
  (forall n, 0 <= n <= len -> f n == f' n) ->
  (re <- (if is_undef v then ret (Fin len) else to_int w v) ;; final <- clamp w re len ;; f final) == bind (or_len w v len) f'.
Proof.
  intros H F. assert (K : forall x, bind (clamp w x len) f == f' (relative x len)).
  { intro x. eapply eqm_trans; [apply clamp_bind; exact H|]. apply F. apply relative_range. lia. }
  unfold or_len. destruct v; cbn [is_undef];
    try (eapply eqm_trans; [apply bind_same; intro; apply K|]; apply eqm_sym; apply bind_assoc).
  eapply eqm_trans; [apply bind_ret_l|]. eapply eqm_trans; [apply K|]. unfold relative.
  destruct (Z.ltb_spec len 0); [lia|]. rewrite Z.min_l by lia. apply eqm_refl.
Qed.

Lemma at_ok this args : p_at w this args == s_at w this args.
Proof.
  unfold p_at, s_at. apply (open_ext this (fun o len => n <- to_int w (arg args 0) ;; _ n)).
  intros o len H. pose proof limit_val as LV. apply bind_same; intro x. destruct x as [z| |]; cbn [dneg].
  - destruct (Z.ltb_spec z 0) as [Hz|Hz]; cbn zeta.
    + destruct (dadd_low len z H Hz) as [A B]. destruct (Z.ltb_spec (len + z) 0) as [K|K].
      * destruct (B K) as (y & -> & Hy & _). unfold dneg. destruct (Z.ltb_spec y 0); [|lia]. cbn [orb].
        destruct (Z.leb_spec 0 (len + z)); [lia|]. apply eqm_refl.
      * rewrite (A K). unfold dneg, dge. destruct (Z.ltb_spec (len + z) 0); [lia|]. destruct (Z.leb_spec len (len + z)); [lia|].
        destruct (Z.leb_spec 0 (len + z)); [|lia]. destruct (Z.ltb_spec (len + z) len); [|lia]. cbn [orb andb].
        intro s. unfold bind. rewrite to_i64_fin by lia. reflexivity.
    + cbn [dneg dge]. destruct (Z.ltb_spec z 0); [lia|]. destruct (Z.leb_spec 0 z); [|lia]. cbn [orb andb].
      destruct (Z.leb_spec len z); destruct (Z.ltb_spec z len); try lia; [apply eqm_refl|].
      intro s. unfold bind. rewrite to_i64_fin by lia. reflexivity.
  - apply eqm_refl.
  - apply eqm_refl.
Qed.

Lemma species_ok (RT : revoked_throws w) o len : species_create w o len == s_species w o len.
Proof.
  unfold species_create, s_species, is_array_or_error.
  intro s. unfold bind at 1. unfold bind at 6. destruct (is_array w o s) as [s' [b|e| |]] eqn:E; cbn [negb]; try reflexivity.
  - destruct b; cbn [negb]; [|reflexivity]. revert s'  E. intros s' _. revert s'. apply bind_same. intro c.
    destruct (is_ctor w c) eqn:C; destruct c; cbn [is_object is_undef]; brute.
  - unfold bind at 1. rewrite (RT _ _ _ _ E). reflexivity.
Qed.


Lemma concat_spreadable_ok e : concat_spreadable w e == s_spreadable w e.
Proof. unfold concat_spreadable, s_spreadable. destruct e; cbn [is_object negb]; brute. Qed.
Lemma concat_one_ok a n e : concat_one w a n e ==
  bind (s_spreadable w e) (fun sp : bool => if sp then
              len <- len_of w e ;;
              if limit <? n + len then throw TypeError
              else each_ (up 0 len) (fun k => copy_to w e k a (n + k)) ;;; ret (n + len)
            else if limit <=? n then throw TypeError
            else create w a (Idx n) e ;;; ret (n + 1)).
Proof.
  unfold concat_one. apply bind_ext; [apply concat_spreadable_ok|]. intros [|].
  - apply bind_post with (P := fun n => 0 <= n <= limit); [intros s s' k E; eapply LF; exact E|]. intros len HL.
    rewrite max_limit, Z.gtb_ltb. destruct (Z.ltb_spec limit (n + len)); [apply eqm_refl|].
    pose proof (loop_rep (W := W w) 1 (fun k => (n + k, k)) (fun '(n, k) =>
        b <- has w e (Idx k) ;;
        (if b then v <- get w e (Idx k) ;; create w a (Idx n) v else ret tt) ;;;
        ret (n + 1, k + 1)) (fun k => copy_to w e k a (n + k)) (rounds 0 len) 0) as L. cbv beta in L.
    replace (n + 0) with n in L by ring.
    eapply eqm_trans; [apply bind_ext; [apply L|intro; apply eqm_refl]|].
    + intros i Hi. replace (n + (0 + 1 * i + 1)) with (n + (0 + 1 * i) + 1) by ring. unfold copy_to, peek. brute.
    + rewrite up_steps. fold (rounds 0 len). apply bind_map; intro. cbn [fst].
      replace (n + (0 + 1 * Z.of_nat (rounds 0 len))) with (n + len) by (unfold rounds; lia). apply eqm_refl.
  - rewrite max_limit, Z.geb_leb. apply eqm_refl.
Qed.
Lemma concat_all_ok a items : forall n, concat_all w a n items == s_concat_items w a n items.
Proof.
  induction items as [|e items IH]; intros n; [apply eqm_refl|]. cbn [concat_all s_concat_items].
  eapply eqm_trans; [apply bind_ext; [apply concat_one_ok|intro; apply IH]|]. apply bind_assoc.
Qed.
Lemma concat_ok (RT : revoked_throws w) this args : p_concat w this args == s_concat w this args.
Proof.
  unfold p_concat, s_concat. apply bind_same; intro o. apply bind_ext; [apply species_ok; exact RT|]. intro a.
  apply bind_ext; [apply concat_all_ok|]. intro n. apply eqm_refl.
Qed.

Lemma copyWithin_ok this args : p_copyWithin w this args == s_copyWithin w this args.
Proof.
  unfold p_copyWithin, s_copyWithin.
  match goal with |- context [bind (to_object w this) (fun o => bind (len_of w o) (fun len => @?F o len))] => apply (open_ext this F) end.
  intros o len H. apply bind_same; intro t. eapply eqm_trans; [apply clamp_bind; exact H|].
  apply bind_same; intro st. eapply eqm_trans; [apply clamp_bind; exact H|].
  apply end_ext; [exact H|]. intros final Hf. cbn zeta.
  set (to := relative t len). set (from := relative st len). set (n := Z.min (final - from) (len - to)).
  destruct ((from <? to) && (to <? from + n)) eqn:C.
  - pose proof (loop_rep (W := W w) (-1) (fun j => (from + j, to + j)) (fun '(from, to) =>
      b <- has w o (Idx from) ;;
      (if b then v <- get w o (Idx from) ;; set w o (Idx to) v else del w o (Idx to)) ;;;
      ret (from + -1, to + -1)) (fun j => shift_to w o (from + j) (to + j)) (Z.to_nat n) (n - 1)) as L. cbv beta in L.
    apply andb_prop in C as [C1 C2]. apply Z.ltb_lt in C1. apply Z.ltb_lt in C2.
    rewrite down_steps'; [|lia].
    replace (Z.to_nat (n - 0)) with (Z.to_nat n) by (f_equal; lia).
    replace (from + (n - 1)) with (from + n - 1) in L by ring. replace (to + (n - 1)) with (to + n - 1) in L by ring.
    eapply eqm_trans.
    + apply bind_ext; [apply L|intro; apply eqm_refl].
      intros i Hi.
      replace (from + (n - 1 + -1 * i + -1)) with (from + (n - 1 + -1 * i) + -1) by ring.
      replace (to + (n - 1 + -1 * i + -1)) with (to + (n - 1 + -1 * i) + -1) by ring.
      unfold shift_to, peek. brute.
    + apply bind_map; intro; apply eqm_refl.
  - pose proof (loop_rep (W := W w) 1 (fun j => (from + j, to + j)) (fun '(from, to) =>
      b <- has w o (Idx from) ;;
      (if b then v <- get w o (Idx from) ;; set w o (Idx to) v else del w o (Idx to)) ;;;
      ret (from + 1, to + 1)) (fun j => shift_to w o (from + j) (to + j)) (Z.to_nat n) 0) as L. cbv beta in L.
    rewrite up_steps. replace (Z.to_nat (n - 0)) with (Z.to_nat n) by (f_equal; lia).
    replace (from + 0) with from in L by ring. replace (to + 0) with to in L by ring.
    eapply eqm_trans.
    + apply bind_ext; [apply L|intro; apply eqm_refl].
      intros i Hi.
      replace (from + (0 + 1 * i + 1)) with (from + (0 + 1 * i) + 1) by ring.
      replace (to + (0 + 1 * i + 1)) with (to + (0 + 1 * i) + 1) by ring.
      unfold shift_to, peek. brute.
    + apply bind_map; intro; apply eqm_refl.
Qed.

Ltac opened := match goal with |- bind (to_object w ?this) (fun o => bind (len_of w o) (fun len => @?F o len)) == _ => apply (open_ext this F) end.

Lemma every_ok this args : p_every w this args == s_every w this args.
Proof.
  unfold p_every, s_every. opened. intros o len H. apply callable_ext. apply loop_up_first.
  intros k Hk. unfold peek, cb, arg. brute.
Qed.
Lemma some_ok this args : p_some w this args == s_some w this args.
Proof.
  unfold p_some, s_some. opened. intros o len H. apply callable_ext. apply loop_up_first.
  intros k Hk. unfold peek, cb, arg. brute.
Qed.
Lemma fill_ok this args : p_fill w this args == s_fill w this args.
Proof.
  unfold p_fill, s_fill. opened. intros o len H. apply bind_same; intro x.
  eapply eqm_trans; [apply clamp_bind; exact H|]. apply end_ext; [exact H|]. intros final Hf.
  apply loop_up_bind. intros k Hk. apply eqm_refl.
Qed.
Lemma filter_ok (RT : revoked_throws w) this args : p_filter w this args == s_filter w this args.
Proof.
  unfold p_filter, s_filter. opened. intros o len H. apply callable_ext. apply bind_ext; [apply species_ok; exact RT|].
  intro a. eapply eqm_trans; [apply bind_ext; [eapply loop_up|intro; apply eqm_refl]|].
  - intros k t Hk. instantiate (1 := fun k to =>
      v <- peek w o k ;;
      match v with
      | Some v => t <- cb w args v k o ;; if truthy w t then create w a (Idx to) v ;;; ret (to + 1) else ret to
      | None => ret to
      end). unfold peek, cb, arg. brute.
  - apply bind_map; intro; apply eqm_refl.
Qed.
Lemma find_up_ok r none this args : find_up w r none this args == s_find_in w (up 0) r none this args.
Proof.
  unfold find_up, s_find_in. opened. intros o len H. apply callable_ext. apply loop_up_first.
  intros k Hk. unfold cb, arg. brute.
Qed.
Lemma find_down_ok r none this args : find_down w r none this args == s_find_in w (down 0) r none this args.
Proof.
  unfold find_down, s_find_in. opened. intros o len H. apply callable_ext.
  rewrite down_steps'; [|lia]. fold (rounds 0 len).
  (* the counter is one more than the index *)
  set (f := fun k => v <- get w o (Idx k) ;; t <- cb w args v k o ;; ret (if truthy w t then Some (r k v) else None)).
  pose proof (loop_first (W := W w) (-1) (fun k =>
      v <- get w o (Idx (k - 1)) ;; t <- call w (arg args 0) (arg args 1) [v; Num (k - 1); o] ;;
      if truthy w t then leave (r (k - 1) v) else next (k - 1)) (fun k => f (k - 1)) (rounds 0 len) len) as L. cbv beta in L.
  intro s. unfold or_else, bind at 1. rewrite L.
  - assert (E : forall n a, first (steps n a (-1)) (fun k => f (k - 1)) == first (steps n (a - 1) (-1)) f).
    { induction n; intro a; [apply eqm_refl|]. cbn [steps first]. apply bind_same. intros [x|]; [apply eqm_refl|].
      replace (a - 1 + -1) with (a + -1 - 1) by ring. apply IHn. }
    unfold bind. rewrite E. destruct (first _ _ s) as [s' [[x|]|e| |]]; reflexivity.
  - intros i Hi. unfold f, cb, arg. replace (len + -1 * i + -1) with (len + -1 * i - 1) by ring. brute.
Qed.

Definition mapper_of (source : val) (f : option (val * val)) (v : val) (k : Z) : M val :=
  match f with Some (fn, ta) => call w fn ta [v; Num k; source] | None => ret v end.
Lemma s_flatten_ext fuel : forall target source slen start depth f f',
  (forall v k, f v k == f' v k) ->
  s_flatten w fuel target source slen start depth f == s_flatten w fuel target source slen start depth f'.
Proof.
  destruct fuel; intros; [apply eqm_refl|]. cbn [s_flatten]. apply each_ext. intros k _ t.
  apply bind_same. intros [v|]; [|apply eqm_refl]. apply bind_ext; [apply H|]. intro; apply eqm_refl.
Qed.
Definition depth_fits (d : xint) : Prop := match d with Fin z => z <= 2 ^ 53 | _ => True end.
Lemma flatten_ok fuel : forall target source slen start depth f, depth_fits depth ->
  flatten w fuel target source slen start depth f == s_flatten w fuel target source slen start depth (mapper_of source f).
Proof.
  induction fuel as [|fuel IH]; intros target source slen start depth f D; [apply eqm_refl|].
  cbn [flatten s_flatten].
  eapply eqm_trans; [apply bind_ext; [eapply loop_up|intro; apply eqm_refl]|].
  2:{ eapply eqm_trans; [|apply bind_ret_r]. apply bind_map; intro. apply eqm_refl. }
  intros k t Hk. cbn beta iota. unfold peek.
  intro s. go. destruct (has w source (Idx k) s) as [s1 [b|e| |]]; try reflexivity. go. destruct b; [|reflexivity].
  go. destruct (get w source (Idx k) s1) as [s2 [v|e| |]]; try reflexivity. go.
  change (match f with Some (fn, ta) => call w fn ta [v; Num k; source] | None => ret v end) with (mapper_of source f v k).
  destruct (mapper_of source f v k s2) as [s3 [v'|e| |]]; try reflexivity. go.
  unfold dpos. cbn zeta.
  set (test := if match depth with Fin z => 0 <? z | PInf => true | NInf => false end then is_array w v' else ret false).
  destruct (test s3) as [s4 [b|e| |]] eqn:T; try reflexivity. go.
  destruct b.
  - go. destruct (len_of w v' s4) as [s5 [n|e| |]]; try reflexivity. go.
    rewrite IH.
    + replace (dpred depth) with (match depth with Fin d => Fin (d - 1) | x => x end).
      * rewrite (s_flatten_ext fuel target v' n t _ (mapper_of v' None) (fun v _ => ret v)) by (intros; apply eqm_refl).
        destruct (s_flatten w fuel target v' n t _ _ s5) as [s6 [t'|e| |]]; reflexivity.
      * unfold dpred, dadd. destruct depth as [z| |]; try reflexivity.
        { cbn in D. destruct (Z.ltb_spec 0 z) as [P|P].
          - rewrite rnd_small; [f_equal; lia|]. rewrite limit_val. lia.
          - exfalso. unfold test in T. destruct (Z.ltb_spec 0 z); [lia|]. inversion T. }
    + unfold dpred, dadd, depth_fits in *. destruct depth as [z| |]; try exact Logic.I.
      destruct (Z.ltb_spec 0 z) as [P|P].
      * rewrite rnd_small; [lia|]. rewrite limit_val. lia.
      * exfalso. unfold test in T. destruct (Z.ltb_spec 0 z); [lia|]. inversion T.
  - rewrite max_limit, Z.geb_leb. destruct (limit <=? t); [reflexivity|]. unfold bind.
    go. destruct (create w target (Idx t) v' s4) as [s5 [[]|e| |]]; reflexivity.
Qed.
Lemma flatMap_ok (RT : revoked_throws w) fuel this args : p_flatMap w fuel this args == s_flatMap w fuel this args.
Proof.
  unfold p_flatMap, s_flatMap. opened. intros o len H. apply callable_ext. apply bind_ext; [apply species_ok; exact RT|].
  intro a. apply bind_ext; [|intro; apply eqm_refl]. apply flatten_ok. cbn. lia.
Qed.
Lemma s_flatten_flat fuel a o len t d d' f :
  (match d with Fin z => z <= 0 | PInf => False | NInf => True end) -> (match d' with Fin z => z <= 0 | PInf => False | NInf => True end) ->
  s_flatten w fuel a o len t d f == s_flatten w fuel a o len t d' f.
Proof.
  intros D D'. destruct fuel; [apply eqm_refl|]. cbn [s_flatten]. apply each_ext. intros k _ t1.
  apply bind_same. intros [v|]; [|apply eqm_refl]. apply bind_same. intro v'. cbn zeta.
  replace (match d with Fin d0 => 0 <? d0 | PInf => true | NInf => false end) with false.
  - replace (match d' with Fin d0 => 0 <? d0 | PInf => true | NInf => false end) with false; [apply eqm_refl|].
    destruct d' as [z| |]; try reflexivity; [symmetry; apply Z.ltb_ge; exact D'|contradiction].
  - destruct d as [z| |]; try reflexivity; [symmetry; apply Z.ltb_ge; exact D|contradiction].
Qed.
Lemma flat_ok (RT : revoked_throws w) (DF : forall v s s' d, to_int w v s = (s', Ok d) -> depth_fits d) fuel this args :
  p_flat w fuel this args == s_flat w fuel this args.
Proof.
  unfold p_flat, s_flat. opened. intros o len H. unfold arg.
  assert (F : forall d, depth_fits d ->
    bind (species_create w o 0) (fun a => flatten w fuel a o len 0 (if dneg d then Fin 0 else d) None ;;; ret a) ==
    bind (s_species w o 0) (fun a => s_flatten w fuel a o len 0 d (fun v _ => ret v) ;;; ret a)).
  { intros d D. apply bind_ext; [apply species_ok; exact RT|]. intro a. apply bind_ext; [|intro; apply eqm_refl].
    eapply eqm_trans; [apply flatten_ok; destruct (dneg d); [cbn; lia|exact D]|].
    eapply eqm_trans; [apply s_flatten_ext with (f' := fun v _ => ret v); intros; apply eqm_refl|].
    destruct (dneg d) eqn:N; [|apply eqm_refl]. apply s_flatten_flat; [lia|].
    destruct d as [z| |]; cbn in N; try exact Logic.I; [apply Z.ltb_lt in N; lia|discriminate]. }
  assert (G : forall v, bind (d <- to_int w v ;; ret (if dneg d then Fin 0 else d))
     (fun d => bind (species_create w o 0) (fun a => flatten w fuel a o len 0 d None ;;; ret a)) ==
     bind (to_int w v) (fun d => bind (s_species w o 0) (fun a => s_flatten w fuel a o len 0 d (fun v _ => ret v) ;;; ret a))).
  { intro v. eapply eqm_trans; [apply bind_assoc|].
    apply bind_post with (P := depth_fits); [intros s s' d E; eapply DF; exact E|]. intros d D.
    eapply eqm_trans; [apply bind_ret_l|]. apply F; exact D. }
  destruct (nth 0 args Undef) eqn:E; cbn [is_undef]; try apply G.
  eapply eqm_trans; [apply bind_ret_l|]. eapply eqm_trans; [|apply eqm_sym; apply bind_ret_l]. apply (F (Fin 1)). cbn; lia.
Qed.

Lemma forEach_ok this args : p_forEach w this args == s_forEach w this args.
Proof.
  unfold p_forEach, s_forEach. opened. intros o len H. apply callable_ext.
  apply loop_up_bind. intros k Hk. unfold peek, cb, arg. brute.
Qed.

(** searches *)
Hypothesis IF : indices_fit w.
Lemma search_start_ok len z : 0 < len <= limit -> - 2 ^ 63 <= z < 2 ^ 63 ->
  search_start w len (Fin z) == ret (if z <? 0 then Z.max 0 (len + z) else z).
Proof.
  intros H Hz. pose proof limit_val as LV. unfold search_start, dneg, is_ninf. destruct (Z.ltb_spec z 0) as [N|N].
  - destruct (dadd_low len z ltac:(lia) N) as [A B]. destruct (Z.ltb_spec (len + z) 0) as [K|K].
    + destruct (B K) as (y & -> & Hy & Hl). intro s. unfold bind. rewrite to_i64_fin by lia.
      unfold ret. destruct (Z.ltb_spec y 0); [|lia]. rewrite Z.max_l by lia. reflexivity.
    + rewrite (A K). intro s. unfold bind. rewrite to_i64_fin by lia.
      unfold ret. destruct (Z.ltb_spec (len + z) 0); [lia|]. rewrite Z.max_r by lia. reflexivity.
  - apply to_i64_fin. lia.
Qed.
Lemma up_empty a b : b <= a -> up a b = [].
Proof. intro H. rewrite up_steps. replace (Z.to_nat (b - a)) with O by lia. reflexivity. Qed.
Lemma search_ext len x (none : val) (body : Z -> M (Z + val)) f : 0 < len <= limit ->
  (forall z, x = Fin z -> - 2 ^ 63 <= z < 2 ^ 63) ->
  (forall k, body k == bind (f k) (fun r => match r with Some x => leave x | None => next (k + 1) end)) ->
  (if is_pinf x then ret none else
     k <- search_start w len x ;; r <- loop (rounds k len) body k ;; after r (fun _ => ret none)) ==
  or_else none (first (up (relative x len) len) f).
Proof.
  intros H Hx Hb.
  assert (L : forall k, bind (loop (rounds k len) body k) (fun r => after r (fun _ => ret none)) == or_else none (first (up k len) f))
    by (intro k; apply loop_up_first; intros; apply Hb).
  destruct x as [z| |]; cbn [is_pinf].
  - eapply eqm_trans; [apply bind_ext; [apply search_start_ok; [exact H|apply Hx; reflexivity]|intro; apply eqm_refl]|].
    eapply eqm_trans; [apply bind_ret_l|]. eapply eqm_trans; [apply L|]. unfold relative.
    destruct (Z.ltb_spec z 0); [apply eqm_refl|]. destruct (Z.leb_spec z len).
    + rewrite Z.min_l by lia. apply eqm_refl.
    + rewrite Z.min_r by lia. rewrite !up_empty by lia. apply eqm_refl.
  - unfold relative. rewrite up_empty by lia. apply eqm_refl.
  - eapply eqm_trans; [apply bind_ret_l|]. apply L.
Qed.
Definition fits (x : xint) : Prop := forall z, x = Fin z -> - 2 ^ 63 <= z < 2 ^ 63.
Lemma to_int_fits v s s' x : to_int w v s = (s', Ok x) -> fits x.
Proof. intros E z ->. eapply IF; exact E. Qed.

Lemma includes_ok this args : p_includes w this args == s_includes w this args.
Proof.
  unfold p_includes, s_includes. opened. intros o len H. destruct (Z.eqb_spec len 0) as [|N]; [apply eqm_refl|].
  apply bind_post with (P := fits); [intros s s' x E; eapply to_int_fits; exact E|]. intros x Hx.
  apply search_ext; [lia|exact Hx|]. intro k. unfold arg. brute.
Qed.
Lemma indexOf_ok this args : p_indexOf w this args == s_indexOf w this args.
Proof.
  unfold p_indexOf, s_indexOf. opened. intros o len H. destruct (Z.eqb_spec len 0) as [|N]; [apply eqm_refl|].
  apply bind_post with (P := fits); [intros s s' x E; eapply to_int_fits; exact E|]. intros x Hx.
  apply search_ext; [lia|exact Hx|]. intro k. unfold s_match, peek, arg. brute.
Qed.
Lemma lastIndexOf_ok this args : p_lastIndexOf w this args == s_lastIndexOf w this args.
Proof.
  unfold p_lastIndexOf, s_lastIndexOf. opened. intros o len H. destruct (Z.eqb_spec len 0) as [|N]; [apply eqm_refl|].
  pose proof limit_val as LV.
  assert (L : forall k, bind (loop (Z.to_nat (k + 1)) (fun k =>
        b <- has w o (Idx k) ;;
        if b then
          v <- get w o (Idx k) ;;
          if strict_eq w v (arg args 0) then leave (Num k) else next (k - 1)
        else next (k - 1)) k) (fun r => after r (fun _ => ret (Num (-1)))) ==
     or_else (Num (-1)) (first (down 0 (k + 1)) (s_match w o args))).
  { intro k. destruct (Z.leb_spec 0 (k + 1)) as [P|P].
    - rewrite down_steps' by lia. replace (k + 1 - 0) with (k + 1) by ring. replace (k + 1 - 1) with k by ring.
      intro s. unfold or_else, bind at 1. rewrite (loop_first (-1) _ (s_match w o args)).
      + unfold bind. destruct (first _ _ s) as [s' [[x|]|e| |]]; reflexivity.
      + intros i Hi. replace (k + -1 * i + -1) with (k + -1 * i - 1) by ring. unfold s_match, peek, arg. brute.
    - rewrite down_steps. replace (Z.to_nat (k + 1)) with O by lia. replace (Z.to_nat (k + 1 - 0)) with O by lia. apply eqm_refl. }
  assert (K : forall x, fits x ->
    (if is_ninf x then ret (Num (-1)) else
       k <- (if dneg x then to_i64 (dadd len x) else to_i64 (dmin x (len - 1))) ;;
       r <- loop (Z.to_nat (k + 1)) (fun k =>
        b <- has w o (Idx k) ;;
        if b then
          v <- get w o (Idx k) ;;
          if strict_eq w v (arg args 0) then leave (Num k) else next (k - 1)
        else next (k - 1)) k ;; after r (fun _ => ret (Num (-1)))) ==
    (let last := match x with
                  | NInf => -1 | PInf => len - 1
                  | Fin z => if z <? 0 then len + z else Z.min z (len - 1)
                  end in
      or_else (Num (-1)) (first (down 0 (last + 1)) (s_match w o args)))).
  { intros x Hx. destruct x as [z| |]; cbn [is_ninf dneg].
    - specialize (Hx z eq_refl). destruct (Z.ltb_spec z 0) as [Hz|Hz].
      + destruct (dadd_low len z H Hz) as [A B]. destruct (Z.ltb_spec (len + z) 0) as [C|C].
        * destruct (B C) as (y & -> & Hy & Hl).
          eapply eqm_trans; [apply bind_ext; [apply to_i64_fin; lia|intro; apply eqm_refl]|].
          eapply eqm_trans; [apply bind_ret_l|]. eapply eqm_trans; [apply L|]. cbn zeta.
          rewrite !down_steps. replace (Z.to_nat (y + 1 - 0)) with O by lia. replace (Z.to_nat (len + z + 1 - 0)) with O by lia. apply eqm_refl.
        * rewrite (A C). eapply eqm_trans; [apply bind_ext; [apply to_i64_fin; lia|intro; apply eqm_refl]|].
          eapply eqm_trans; [apply bind_ret_l|]. apply L.
      + unfold dmin. destruct (Z.ltb_spec z (len - 1)).
        * eapply eqm_trans; [apply bind_ext; [apply to_i64_fin; lia|intro; apply eqm_refl]|].
          eapply eqm_trans; [apply bind_ret_l|]. rewrite Z.min_l by lia. apply L.
        * eapply eqm_trans; [apply bind_ext; [apply to_i64_fin; lia|intro; apply eqm_refl]|].
          eapply eqm_trans; [apply bind_ret_l|]. rewrite Z.min_r by lia. apply L.
    - cbn [dmin]. eapply eqm_trans; [apply bind_ext; [apply to_i64_fin; lia|intro; apply eqm_refl]|].
      eapply eqm_trans; [apply bind_ret_l|]. apply L.
    - cbn zeta. rewrite down_steps. apply eqm_refl. }
  destruct args as [|v0 [|v1 args]]; cbn [argc length].
  - eapply eqm_trans; [apply bind_ret_l|]. eapply eqm_trans; [|apply eqm_sym; apply bind_ret_l]. apply K. intros z E. injection E as <-. lia.
  - eapply eqm_trans; [apply bind_ret_l|]. eapply eqm_trans; [|apply eqm_sym; apply bind_ret_l]. apply K. intros z E. injection E as <-. lia.
  - replace (argc (v0 :: v1 :: args) >? 1) with true.
    2:{ unfold argc. cbn [length]. symmetry. rewrite Z.gtb_ltb. apply Z.ltb_lt. lia. }
    cbn [arg nth].
    apply bind_post with (P := fits); [intros s s' x E; eapply to_int_fits; exact E|]. intros x Hx. apply K; exact Hx.
Qed.

Lemma join_loop ss text o len :
  bind (loop_ (rounds 0 len) (fun '(k, ucb) =>
    let ucb := if k >? 0 then ucb ++ ss else ucb in
    v <- get w o (Idx k) ;;
    if negb (is_undef v) && negb (is_null v) then s <- text v ;; ret (k + 1, ucb ++ s) else ret (k + 1, ucb)) (0, []))
    (fun r => ret (Str (snd r))) == s_join_with w ss text o len.
Proof.
  unfold s_join_with. eapply eqm_trans; [apply bind_ext; [eapply loop_up|intro; apply eqm_refl]|].
  2:{ apply bind_map; intro; apply eqm_refl. }
  intros k t Hk. cbn zeta. eapply eqm_trans; [|apply eqm_sym; apply bind_assoc]. apply bind_same. intro v.
  assert (E : forall s, (if k >? 0 then t ++ ss else t) ++ s = t ++ (if k =? 0 then [] else ss) ++ s).
  { intro s. rewrite Z.gtb_ltb. destruct (Z.ltb_spec 0 k); destruct (Z.eqb_spec k 0); try lia; [apply eq_sym, app_assoc|reflexivity]. }
  assert (E0 : (if k >? 0 then t ++ ss else t) = t ++ (if k =? 0 then [] else ss) ++ []) by (rewrite <- E, app_nil_r; reflexivity).
  destruct v; cbn [is_undef is_null negb andb];
    try (rewrite E0; eapply eqm_trans; [|apply eqm_sym; apply bind_assoc]; intro; reflexivity);
    (intro st; unfold bind; destruct (text _ st) as [st' [tx|e| |]]; try reflexivity; unfold ret; rewrite E; reflexivity).
Qed.
Lemma join_ok this args : p_join w this args == s_join w this args.
Proof.
  unfold p_join, s_join. opened. intros o len H. unfold arg.
  destruct (nth 0 args Undef); cbn [is_undef]; apply bind_same; intro ss; apply join_loop.
Qed.
Lemma toLocaleString_ok this args : p_toLocaleString w this args == s_toLocaleString w this args.
Proof.
  unfold p_toLocaleString, s_toLocaleString. opened. intros o len H.
  eapply eqm_trans; [|apply join_loop]. apply bind_ext; [|intro; apply eqm_refl].
  apply loop__ext. intros [k u]. cbn zeta. apply bind_same; intro v.
  destruct (negb (is_undef v) && negb (is_null v)); [|apply eqm_refl]. apply eqm_sym. apply bind_assoc.
Qed.
Lemma map_ok (RT : revoked_throws w) this args : p_map w this args == s_map w this args.
Proof.
  unfold p_map, s_map. opened. intros o len H. apply callable_ext. apply bind_ext; [apply species_ok; exact RT|]. intro a.
  apply loop_up_bind. intros k Hk. unfold peek, cb, arg. brute.
Qed.
Lemma pop_ok this args : p_pop w this args == s_pop w this args.
Proof. unfold p_pop, s_pop. opened. intros o len H. apply eqm_refl. Qed.
Lemma set_items_ok o items : forall k,
  set_items w o k items == bind (do_all (numbered k items) (fun '(k, v) => set w o (Idx k) v)) (fun _ => ret (k + Z.of_nat (length items))).
Proof.
  induction items as [|v items IH]; intro k.
  - cbn. replace (k + 0) with k by ring. intro; reflexivity.
  - cbn [set_items numbered do_all]. eapply eqm_trans; [|apply eqm_sym; apply bind_assoc]. apply bind_same; intro.
    eapply eqm_trans; [apply IH|]. replace (k + 1 + Z.of_nat (length items)) with (k + Z.of_nat (length (v :: items))) by (cbn [length]; lia).
    apply eqm_refl.
Qed.
Lemma create_items_ok a items : forall k,
  create_items w a k items == bind (do_all (numbered k items) (fun '(k, v) => create w a (Idx k) v)) (fun _ => ret (k + Z.of_nat (length items))).
Proof.
  induction items as [|v items IH]; intro k.
  - cbn. replace (k + 0) with k by ring. intro; reflexivity.
  - cbn [create_items numbered do_all]. eapply eqm_trans; [|apply eqm_sym; apply bind_assoc]. apply bind_same; intro.
    eapply eqm_trans; [apply IH|]. replace (k + 1 + Z.of_nat (length items)) with (k + Z.of_nat (length (v :: items))) by (cbn [length]; lia).
    apply eqm_refl.
Qed.
Lemma push_ok this args : p_push w this args == s_push w this args.
Proof.
  unfold p_push, s_push. opened. intros o len H. cbn zeta. rewrite max_limit, Z.gtb_ltb. unfold argc.
  destruct (limit <? len + Z.of_nat (length args)); [apply eqm_refl|].
  eapply eqm_trans; [apply bind_ext; [apply set_items_ok|intro; apply eqm_refl]|].
  apply bind_map; intro; apply eqm_refl.
Qed.

Lemma fold_some d o f n : forall a acc,
  bind (loop_ n (fun '(k, acc) =>
      b <- has w o (Idx k) ;;
      if b then v <- get w o (Idx k) ;; acc <- call w f Undef [acc; v; Num k; o] ;; ret (k + d, acc)
      else ret (k + d, acc)) (a, acc)) (fun r => ret (snd r)) == s_fold w (steps n a d) o f (Some acc).
Proof.
  induction n; intros a acc; [intro; reflexivity|].
  assert (IH := IHn). clear IHn. cbn [steps s_fold]. unfold loop_ in *. cbn [loop]. intro s.
  unfold peek. unfold bind, next, ret in *.
  destruct (has w o (Idx a) s) as [s1 [b|e| |]]; try reflexivity. destruct b.
  - destruct (get w o (Idx a) s1) as [s2 [v|e| |]]; try reflexivity.
    destruct (call w f Undef [acc; v; Num a; o] s2) as [s3 [acc'|e| |]]; try reflexivity. apply (IH (a + d) acc').
  - apply (IH (a + d) acc).
Qed.
Lemma fold_none d o f cnt n : forall a,
  (forall i, 0 <= i < Z.of_nat n -> cnt (a + d * i + d) = Z.to_nat (Z.of_nat n - i - 1)) ->
  bind (r <- loop n (fun k =>
              b <- has w o (Idx k) ;;
              if b then v <- get w o (Idx k) ;; leave (k + d, v) else next (k + d)) a ;;
            match r with inr s => ret s | inl _ => throw TypeError end) (fun s =>
    r <- loop_ (cnt (fst s)) (fun '(k, acc) =>
      b <- has w o (Idx k) ;;
      if b then v <- get w o (Idx k) ;; acc <- call w f Undef [acc; v; Num k; o] ;; ret (k + d, acc)
      else ret (k + d, acc)) s ;;
    ret (snd r)) == s_fold w (steps n a d) o f None.
Proof.
  induction n; intros a C; [intro; reflexivity|].
  assert (IH := IHn (a + d)). match type of IH with ?P -> _ => assert (HP : P) end.
  { intros i Hi. replace (a + d + d * i + d) with (a + d * (i + 1) + d) by ring. rewrite C by lia. f_equal. lia. }
  specialize (IH HP). clear HP.
  clear IHn. cbn [steps s_fold]. cbn [loop]. intro s.
  specialize (C 0 ltac:(lia)). replace (a + d * 0 + d) with (a + d) in C by ring.
  replace (Z.to_nat (Z.of_nat (Datatypes.S n) - 0 - 1)) with n in C by lia.
  unfold peek. go.
  destruct (has w o (Idx a) s) as [s1 [b|e| |]]; try reflexivity. go. destruct b.
  - go. destruct (get w o (Idx a) s1) as [s2 [v|e| |]]; try reflexivity. unfold leave. go. cbn [fst]. rewrite C.
    apply (fold_some d o f n (a + d) v s2).
  - unfold next. go. rewrite <- (IH s1). go. reflexivity.
Qed.
Lemma argc2 (v0 v1 : val) args : (argc (v0 :: v1 :: args) >=? 2) = true /\ (argc (v0 :: v1 :: args) <? 2) = false.
Proof. unfold argc. cbn [length]. rewrite Z.geb_leb. split; [apply Z.leb_le|apply Z.ltb_ge]; lia. Qed.
Lemma reduce_ok this args : p_reduce w this args == s_reduce_in w (up 0) this args.
Proof.
  unfold p_reduce, s_reduce_in. opened. intros o len H. apply callable_ext. rewrite up_steps.
  assert (NN : forall a, (argc a >=? 2) = false -> (argc a <? 2) = true -> 
    (if (len =? 0) && (argc a <? 2) then throw TypeError else
     s <- (if argc a >=? 2 then ret (0, arg a 1)
          else
            r <- loop (rounds 0 len) (fun k =>
              b <- has w o (Idx k) ;;
              if b then v <- get w o (Idx k) ;; leave (k + 1, v) else next (k + 1)) 0 ;;
            match r with inr s => ret s | inl _ => throw TypeError end) ;;
    r <- loop_ (rounds (fst s) len) (fun '(k, acc) =>
      b <- has w o (Idx k) ;;
      if b then v <- get w o (Idx k) ;; acc <- call w (arg a 0) Undef [acc; v; Num k; o] ;; ret (k + 1, acc)
      else ret (k + 1, acc)) s ;;
    ret (snd r)) == s_fold w (steps (Z.to_nat (len - 0)) 0 1) o (arg a 0) None).
  { intros a E1 E2. rewrite E1, E2. rewrite andb_true_r. destruct (Z.eqb_spec len 0) as [->|N]; [apply eqm_refl|].
    apply (fold_none 1 o (arg a 0) (fun k => rounds k len)). intros i Hi. unfold rounds. f_equal. lia. }
  destruct args as [|v0 [|v1 args]]; [apply NN; reflexivity|apply NN; reflexivity|].
  destruct (argc2 v0 v1 args) as [E1 E2]. rewrite E1, E2, andb_false_r.
  eapply eqm_trans; [apply bind_ret_l|]. apply (fold_some 1 o).
Qed.
Lemma reduceRight_ok this args : p_reduceRight w this args == s_reduce_in w (down 0) this args.
Proof.
  unfold p_reduceRight, s_reduce_in. opened. intros o len H. apply callable_ext. rewrite down_steps' by lia.
  assert (LP : forall f o s n, loop_ (W := W w) n (fun '(k, acc) =>
      b <- has w o (Idx k) ;;
      if b then v <- get w o (Idx k) ;; acc <- call w f Undef [acc; v; Num k; o] ;; ret (k - 1, acc)
      else ret (k - 1, acc)) s =
     loop_ (W := W w) n (fun '(k, acc) =>
      b <- has w o (Idx k) ;;
      if b then v <- get w o (Idx k) ;; acc <- call w f Undef [acc; v; Num k; o] ;; ret (k + -1, acc)
      else ret (k + -1, acc)) s) by reflexivity.
  assert (NN : forall a, (argc a >=? 2) = false -> (argc a <? 2) = true -> 
    (if (len =? 0) && (argc a <? 2) then throw TypeError else
     s <- (if argc a >=? 2 then ret (len - 1, arg a 1)
          else
            r <- loop (Z.to_nat (len - 1 + 1)) (fun k =>
              b <- has w o (Idx k) ;;
              if b then v <- get w o (Idx k) ;; leave (k - 1, v) else next (k - 1)) (len - 1) ;;
            match r with inr s => ret s | inl _ => throw TypeError end) ;;
    r <- loop_ (Z.to_nat (fst s + 1)) (fun '(k, acc) =>
      b <- has w o (Idx k) ;;
      if b then v <- get w o (Idx k) ;; acc <- call w (arg a 0) Undef [acc; v; Num k; o] ;; ret (k - 1, acc)
      else ret (k - 1, acc)) s ;;
    ret (snd r)) == s_fold w (steps (Z.to_nat (len - 0)) (len - 1) (-1)) o (arg a 0) None).
  { intros a E1 E2. rewrite E1, E2. rewrite andb_true_r. destruct (Z.eqb_spec len 0) as [->|N]; [apply eqm_refl|].
    replace (Z.to_nat (len - 1 + 1)) with (Z.to_nat (len - 0)) by (f_equal; lia).
    apply (fold_none (-1) o (arg a 0) (fun k => Z.to_nat (k + 1))). intros i Hi. f_equal. lia. }
  destruct args as [|v0 [|v1 args]]; [apply NN; reflexivity|apply NN; reflexivity|].
  destruct (argc2 v0 v1 args) as [E1 E2]. rewrite E1, E2, andb_false_r.
  eapply eqm_trans; [apply bind_ret_l|]. cbn [fst arg nth]. replace (Z.to_nat (len - 1 + 1)) with (Z.to_nat (len - 0)) by (f_equal; lia).
  apply (fold_some (-1) o).
Qed.

Lemma reverse_ok this args : p_reverse w this args == s_reverse w this args.
Proof.
  unfold p_reverse, s_reverse. opened. intros o len H.
  set (g := fun lower (t : val * val) =>
    let upper := len - lower - 1 in
    le <- has w o (Idx lower) ;; lv <- (if le then get w o (Idx lower) else ret (fst t)) ;;
    ue <- has w o (Idx upper) ;; uv <- (if ue then get w o (Idx upper) else ret (snd t)) ;;
    (if le && ue then set w o (Idx lower) uv ;;; set w o (Idx upper) lv
     else if ue then set w o (Idx lower) uv ;;; del w o (Idx upper)
     else if le then del w o (Idx lower) ;;; set w o (Idx upper) lv
     else ret tt) ;;;
    ret (lv, uv)).
  pose proof (loop__each (W := W w) 1 (fun k (t : val * val) => (k, fst t, snd t)) (fun '(lower, lv, uv) =>
    let upper := len - lower - 1 in
    le <- has w o (Idx lower) ;; lv <- (if le then get w o (Idx lower) else ret lv) ;;
    ue <- has w o (Idx upper) ;; uv <- (if ue then get w o (Idx upper) else ret uv) ;;
    (if le && ue then set w o (Idx lower) uv ;;; set w o (Idx upper) lv
     else if ue then set w o (Idx lower) uv ;;; del w o (Idx upper)
     else if le then del w o (Idx lower) ;;; set w o (Idx upper) lv
     else ret tt) ;;;
    ret (lower + 1, lv, uv)) g (rounds 0 (len / 2)) 0 (Undef, Undef)) as L. cbv beta in L.
  cbn [fst snd] in L. eapply eqm_trans; [apply bind_ext; [apply L|intro; apply eqm_refl]|].
  - intros i t Hi. unfold g. cbn zeta. generalize (0 + 1 * i). intro k. destruct t as [t1 t2]. cbn [fst snd]. clear. brute.
  - eapply eqm_trans; [apply bind_map with (h := fun _ => ret o); intro; apply eqm_refl|].
    rewrite up_steps. fold (rounds 0 (len / 2)). apply each_forget.
    intros k [t1 t2]. unfold g. cbn zeta. cbn [fst snd]. replace (len - k - 1) with (len - 1 - k) by ring.
    generalize (len - 1 - k). intro u. unfold peek. clear. intro s. go.
    destruct (has w o (Idx k) s) as [s1 [[|]|e| |]]; try reflexivity; go.
    + destruct (get w o (Idx k) s1) as [s2 [lv|e| |]]; try reflexivity; go.
      destruct (has w o (Idx u) s2) as [s3 [[|]|e| |]]; try reflexivity; go.
      * destruct (get w o (Idx u) s3) as [s4 [uv|e| |]]; try reflexivity; go. cbn [andb]. go.
        destruct (set w o (Idx k) uv s4) as [s5 [[]|e| |]]; try reflexivity; go.
        destruct (set w o (Idx u) lv s5) as [s6 [[]|e| |]]; reflexivity.
      * cbn [andb]. go. destruct (del w o (Idx k) s3) as [s4 [[]|e| |]]; try reflexivity; go.
        destruct (set w o (Idx u) lv s4) as [s5 [[]|e| |]]; reflexivity.
    + destruct (has w o (Idx u) s1) as [s3 [[|]|e| |]]; try reflexivity; go.
      destruct (get w o (Idx u) s3) as [s4 [uv|e| |]]; try reflexivity; go. cbn [andb]. go.
      destruct (set w o (Idx k) uv s4) as [s5 [[]|e| |]]; try reflexivity; go.
      destruct (del w o (Idx u) s5) as [s6 [[]|e| |]]; reflexivity.
Qed.
Lemma shift_ok this args : p_shift w this args == s_shift w this args.
Proof.
  unfold p_shift, s_shift. opened. intros o len H. destruct (len =? 0); [apply eqm_refl|]. apply bind_same; intro v.
  apply loop_up_bind. intros k Hk. unfold shift_to, peek. brute.
Qed.
Lemma slice_ok (RT : revoked_throws w) this args : p_slice w this args == s_slice w this args.
Proof.
  unfold p_slice, s_slice. opened. intros o len H. apply bind_same; intro x.
  eapply eqm_trans; [apply clamp_bind; exact H|]. apply end_ext; [exact H|]. intros final Hf. cbn zeta.
  set (k0 := relative x len). replace (if final <? k0 then 0 else final - k0) with (Z.max (final - k0) 0).
  2:{ destruct (Z.ltb_spec final k0); lia. }
  apply bind_ext; [apply species_ok; exact RT|]. intro a.
  pose proof (loop_rep (W := W w) 1 (fun j => (k0 + j, j)) (fun '(k, n) =>
    b <- has w o (Idx k) ;;
    (if b then v <- get w o (Idx k) ;; create w a (Idx n) v else ret tt) ;;;
    ret (k + 1, n + 1)) (fun j => copy_to w o (k0 + j) a j) (rounds k0 final) 0) as L. cbv beta in L.
  replace (k0 + 0) with k0 in L by ring.
  eapply eqm_trans; [apply bind_ext; [apply L|intro; apply eqm_refl]|].
  - intros i Hi. replace (k0 + (0 + 1 * i + 1)) with (k0 + (0 + 1 * i) + 1) by ring. unfold copy_to, peek. brute.
  - rewrite up_steps.
    replace (Z.to_nat (Z.max (final - k0) 0 - 0)) with (rounds k0 final) by (unfold rounds; lia).
    apply bind_map; intro. cbn [snd].
    replace (0 + 1 * Z.of_nat (rounds k0 final)) with (Z.max (final - k0) 0) by (unfold rounds; lia). apply eqm_refl.
Qed.
Lemma toReversed_ok this args : p_toReversed w this args == s_toReversed w this args.
Proof.
  unfold p_toReversed, s_toReversed. opened. intros o len H. apply bind_same; intro a.
  apply loop_up_bind. intros k Hk. replace (len - k - 1) with (len - 1 - k) by ring. brute.
Qed.
Lemma insert_count_ok args : insert_count args = Z.of_nat (length (items_of args)).
Proof.
  unfold insert_count, items_of, argc. rewrite skipn_length, Z.gtb_ltb. destruct (Z.ltb_spec 2 (Z.of_nat (length args))); lia.
Qed.
Lemma delete_count_ok args len start : 0 <= len <= limit -> 0 <= start <= len ->
  delete_count w args len start == s_delete_count w args len start.
Proof.
  intros H Hs. pose proof limit_val as LV. unfold delete_count, s_delete_count.
  destruct args as [|v0 [|v1 args]]; [apply eqm_refl|apply eqm_refl|].
  destruct (argc2 v0 v1 args) as [E1 E2]. rewrite E2.
  replace (argc (v0 :: v1 :: args) <? 1) with false by (symmetry; apply Z.ltb_ge; apply Z.ltb_ge in E2; lia).
  apply bind_same; intro x. destruct x as [z| |]; unfold count, dmax, dmin.
  - destruct (Z.ltb_spec 0 z).
    + destruct (Z.ltb_spec z (len - start)); rewrite Z.max_l by lia; [rewrite Z.min_l by lia|rewrite Z.min_r by lia]; apply to_i64_fin; lia.
    + rewrite Z.max_r by lia. destruct (Z.ltb_spec 0 (len - start)); [rewrite Z.min_l by lia|rewrite Z.min_r by lia]; apply to_i64_fin; lia.
  - apply to_i64_fin; lia.
  - destruct (Z.ltb_spec 0 (len - start)); [apply to_i64_fin; lia|].
    replace (len - start) with 0 by lia. apply to_i64_fin; lia.
Qed.
Lemma s_delete_count_range args len start s s' n : 0 <= len -> 0 <= start <= len ->
  s_delete_count w args len start s = (s', Ok n) -> 0 <= n <= len - start.
Proof.
  intros H Hs. unfold s_delete_count. destruct args as [|v0 [|v1 args]].
  - intro E. injection E as _ <-. lia.
  - intro E. injection E as _ <-. lia.
  - unfold bind. destruct (to_int w v1 s) as [s1 [x|e| |]]; try discriminate. intro E. injection E as _ <-.
    unfold count. destruct x; lia.
Qed.
Lemma toSpliced_ok this args : p_toSpliced w this args == s_toSpliced w this args.
Proof.
  unfold p_toSpliced, s_toSpliced. opened. intros o len H. apply bind_same; intro x.
  eapply eqm_trans; [apply clamp_bind; exact H|]. cbn zeta. set (start := relative x len).
  assert (Hs : 0 <= start <= len) by (apply relative_range; lia).
  eapply eqm_trans; [apply bind_ext; [apply delete_count_ok; assumption|intro; apply eqm_refl]|].
  apply bind_post with (P := fun n => 0 <= n <= len - start); [intros s s' n E; eapply s_delete_count_range; [| |exact E]; lia|].
  intros skip Hk. rewrite insert_count_ok, max_limit, Z.gtb_ltb. set (items := items_of args). set (ic := Z.of_nat (length items)).
  replace (len - skip + ic) with (len + ic - skip) by ring.
  destruct (limit <? len + ic - skip); [apply eqm_refl|]. apply bind_same; intro a.
  eapply eqm_trans; [apply bind_ext; [apply loop_up_ with (f := fun k => v <- get w o (Idx k) ;; create w a (Idx k) v)|intro; apply eqm_refl]|].
  { intros k Hk'. brute. }
  apply bind_map; intro. replace (0 + Z.of_nat (rounds 0 start)) with start by (unfold rounds; lia).
  fold (items_of args). fold items.
  eapply eqm_trans; [apply bind_ext; [apply create_items_ok|intro; apply eqm_refl]|].
  apply bind_map; intro. fold ic.
  pose proof (loop_rep (W := W w) 1 (fun k => (k - skip + ic, k)) (fun '(i, j) => v <- get w o (Idx j) ;; create w a (Idx i) v ;;; ret (i + 1, j + 1))
    (fun k => v <- get w o (Idx k) ;; create w a (Idx (k - skip + ic)) v) (rounds (start + skip) len) (start + skip)) as L. cbv beta in L.
  replace (start + skip - skip + ic) with (start + ic) in L by ring.
  replace (rounds (start + ic) (len + ic - skip)) with (rounds (start + skip) len) by (unfold rounds; f_equal; lia).
  rewrite up_steps. fold (rounds (start + skip) len).
  eapply eqm_trans; [apply bind_ext; [apply L|intro; apply eqm_refl]|].
  - intros i Hi. replace (start + skip + 1 * i + 1 - skip + ic) with (start + skip + 1 * i - skip + ic + 1) by ring. brute.
  - apply bind_map; intro; apply eqm_refl.
Qed.
Lemma toString_ok fallback this args : p_toString w fallback this args == s_toString w fallback this args.
Proof. unfold p_toString, s_toString. apply bind_same; intro a. apply bind_same; intro f. destruct (callable w f); apply eqm_refl. Qed.
Lemma with_ok (CN : forall a k v s s' e, create w a k v s <> (s', Throw e))
  (NI : forall v s s' x, to_int w v s = (s', Ok x) -> x <> PInf /\ x <> NInf) this args : p_with w this args == s_with w this args.
Proof.
  unfold p_with, s_with. opened. intros o len H. pose proof limit_val as LV.
  apply bind_post with (P := fun x => fits x /\ x <> PInf /\ x <> NInf).
  { intros s s' x E. split; [eapply to_int_fits; exact E|eapply NI; exact E]. }
  intros x (Hx & NP & NN). destruct x as [z| |]; try congruence. specialize (Hx z eq_refl). cbn [dneg].
  assert (B : forall i, 0 <= i < len ->
    bind (new_array w len) (fun a => loop_ (rounds 0 len) (fun k =>
      v <- (if k =? i then ret (arg args 1) else get w o (Idx k)) ;;
      ignored w (create w a (Idx k) v) ;;; ret (k + 1)) 0 ;;; ret a) ==
    bind (new_array w len) (fun a => each_ (up 0 len) (fun k =>
            v <- (if k =? i then ret (nth 1 args Undef) else get w o (Idx k)) ;; create w a (Idx k) v) ;;; ret a)).
  { intros i Hi. apply bind_same; intro a. apply loop_up_bind. intros k Hk.
    eapply eqm_trans; [|apply eqm_sym; apply bind_assoc]. apply bind_same; intro v. intro s. unfold bind, ignored.
    destruct (create w a (Idx k) v s) as [s' [[]|e| |]] eqn:E; try reflexivity. exfalso. eapply CN; exact E. }
  assert (C : forall i, (if (i <? 0) || (i >=? len) then throw RangeError else
      bind (new_array w len) (fun a => loop_ (rounds 0 len) (fun k =>
      v <- (if k =? i then ret (arg args 1) else get w o (Idx k)) ;;
      ignored w (create w a (Idx k) v) ;;; ret (k + 1)) 0 ;;; ret a)) ==
    (if (0 <=? i) && (i <? len) then bind (new_array w len) (fun a => each_ (up 0 len) (fun k =>
            v <- (if k =? i then ret (nth 1 args Undef) else get w o (Idx k)) ;; create w a (Idx k) v) ;;; ret a) else throw RangeError)).
  { intro i. rewrite Z.geb_leb. destruct (Z.ltb_spec i 0); destruct (Z.leb_spec len i); destruct (Z.leb_spec 0 i); destruct (Z.ltb_spec i len);
      try lia; try apply eqm_refl. cbn [orb andb]. apply B; lia. }
  destruct (Z.ltb_spec z 0) as [Hz|Hz].
  - destruct (dadd_low len z H Hz) as [A A']. destruct (Z.ltb_spec (len + z) 0) as [K|K].
    + destruct (A' K) as (y & -> & Hy & Hl). cbn zeta.
      eapply eqm_trans; [apply bind_ext; [apply to_i64_fin; lia|intro; apply eqm_refl]|].
      eapply eqm_trans; [apply bind_ret_l|]. destruct (Z.ltb_spec y 0); [|lia]. destruct (Z.leb_spec 0 (len + z)); [lia|]. apply eqm_refl.
    + rewrite (A K). eapply eqm_trans; [apply bind_ext; [apply to_i64_fin; lia|intro; apply eqm_refl]|].
      eapply eqm_trans; [apply bind_ret_l|]. apply C.
  - eapply eqm_trans; [apply bind_ext; [apply to_i64_fin; lia|intro; apply eqm_refl]|].
    eapply eqm_trans; [apply bind_ret_l|]. apply C.
Qed.
End M.
