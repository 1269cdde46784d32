(** Proofs about the consumers of iterators. *)
From Coq Require Import List ZArith Bool Lia.
From Verif Require Import MethModel IterModel IterSpec.
Import ListNotations.
Local Open Scope Z_scope.

(** equality of computations, pointwise *)
Definition eqm {W A} (m n : M W A) : Prop := forall s, m s = n s.
Infix "==" := eqm (at level 70).
Lemma eqm_refl : forall W A (m : M W A), m == m. Proof. intros; intro; reflexivity. Qed.
Lemma eqm_trans : forall W A (a b c : M W A), a == b -> b == c -> a == c.
Proof. intros W A a b c H K s. rewrite H. apply K. Qed.
Lemma bind_ext : forall W A B (m m' : M W A) (f g : A -> M W B),
  m == m' -> (forall a, f a == g a) -> bind m f == bind m' g.
Proof. intros W A B m m' f g H K s. unfold bind. rewrite H. destruct (m' s) as [s' [a|e| |]]; auto. apply K. Qed.
Lemma bind_assoc : forall W A B C (m : M W A) (f : A -> M W B) (g : B -> M W C),
  bind (bind m f) g == bind m (fun a => bind (f a) g).
Proof. intros W A B C m f g s. unfold bind. destruct (m s) as [s' [a|e| |]]; auto. Qed.
Lemma bind_ret : forall W A (m : M W A), bind m ret == m.
Proof. intros W A m s. unfold bind, ret. destruct (m s) as [s' [a|e| |]]; auto. Qed.

Section S.
Variable w : iworld.

Lemma open_eq : forall m o, get_iterator_of w m o == s_open w m o.
Proof.
  intros m o. apply bind_ext; [apply eqm_refl|]. intros it. destruct it; cbn; apply eqm_refl.
Qed.
Lemma iterator_eq : forall o, get_iterator w o == s_iterator w o.
Proof. intros o. apply bind_ext; [apply eqm_refl|]. intros m. apply open_eq. Qed.

Lemma close_eq : forall A i e, @iterator_close w A i e == s_close w i e.
Proof.
  intros A i e s. unfold iterator_close, s_close, on_err, bind, completion_of.
  destruct (i_method w (fst i) MReturn s) as [s1 [m|e1| |]]; try reflexivity.
  destruct m; cbn [is_undef]; try reflexivity;
    unfold call_method, s_call0; destruct (i_callable w _); try reflexivity;
    destruct (i_call w _ (fst i) [] s1) as [s2 [r|e2| |]]; try reflexivity; destruct r; reflexivity.
Qed.

Lemma next_eq : forall A i (f : val -> M (IW w) A) (g : M (IW w) A),
  (r <- iterator_step w i ;; match r with None => g | Some r => v <- iterator_value w r ;; f v end)
  == (r <- s_next_value w i ;; match r with None => g | Some v => f v end).
Proof.
  intros A i f g s. unfold iterator_step, iterator_next, iterator_complete, iterator_value, s_next_value, bind.
  change (call_method w (snd i) (fst i) s) with (s_call0 w (snd i) (fst i) s).
  destruct (s_call0 w (snd i) (fst i) s) as [s1 [r|e| |]]; try reflexivity.
  destruct r; cbn [is_object ret throw]; try reflexivity.
  destruct (i_get w (Ref x) KDone s1) as [s2 [d|e| |]]; try reflexivity.
  cbn [ret]. destruct (i_truthy w d); cbn [ret]; [reflexivity|].
  destruct (i_get w (Ref x) KValue s2) as [s3 [v|e| |]]; reflexivity.
Qed.

(** on_err over the loop is on_err in every step *)
Lemma on_err_ext : forall A (m n : M (IW w) A) h k,
  m == n -> (forall e, h e == k e) -> on_err m h == on_err n k.
Proof. intros A m n h k H K s. unfold on_err. rewrite H. destruct (n s) as [s' [a|e| |]]; auto. apply K. Qed.
Lemma on_err_close : forall A i (m : M (IW w) A), on_err m (fun e => s_close w i e) == or_close w i m.
Proof. intros A i m s. unfold on_err, or_close, bind, completion_of. destruct (m s) as [s' [a|e| |]]; reflexivity. Qed.
Lemma on_err_bind : forall A B i (m : M (IW w) A) (f : A -> M (IW w) B),
  on_err (bind m f) (fun e => s_close w i e) ==
  bind (or_close w i m) (fun a => on_err (f a) (fun e => s_close w i e)).
Proof.
  intros A B i m f s. unfold on_err, or_close, bind, completion_of.
  destruct (m s) as [s' [a|e| |]]; try reflexivity.
  unfold s_close, bind, completion_of.
  destruct (i_method w (fst i) MReturn s') as [s1 [x|x| |]]; try reflexivity.
  destruct x; try reflexivity; unfold s_call0; destruct (i_callable w _); try reflexivity;
    destruct (i_call w _ _ _ s1) as [s2 [y|y| |]]; reflexivity.
Qed.
Lemma or_close_ext : forall A i (m n : M (IW w) A), m == n -> or_close w i m == or_close w i n.
Proof. intros A i m n H s. unfold or_close, bind, completion_of. rewrite H. reflexivity. Qed.
Lemma fetch_closes : forall i, or_close w i (s_next_value w i) == fetch w (closes w) i.
Proof. intros i s. reflexivity. Qed.

Lemma drain_eq : forall S fuel i (f g : S -> val -> M (IW w) S), (forall s v, f s v == g s v) -> forall s,
  on_err (drain w fuel i f s) (iterator_close w i) == for_each w (closes w) fuel i g s.
Proof.
  intros S fuel i f g FG. induction fuel as [|fuel IH]; intros s; [intro; reflexivity|].
  eapply eqm_trans; [apply on_err_ext; [exact (next_eq _ i (fun v => bind (f s v) (drain w fuel i f)) (ret s))|intro; apply close_eq]|].
  eapply eqm_trans; [apply on_err_bind|]. cbn [for_each].
  apply bind_ext; [apply fetch_closes|]. intros [v|]; [|apply eqm_refl].
  eapply eqm_trans; [apply on_err_bind|]. apply bind_ext.
  - intro st. unfold or_close, bind, completion_of. rewrite FG. reflexivity.
  - intros s'. eapply eqm_trans; [|apply IH]. apply on_err_ext; [apply eqm_refl|intros e st; symmetry; apply close_eq].
Qed.

Lemma pair_eq : forall A v (f : val * val -> M (IW w) A), bind (pair_of w v) f == bind (entry_of w v) f.
Proof. intros A v f. apply bind_ext; [|intro; apply eqm_refl]. destruct v; apply eqm_refl. Qed.

Lemma set_actual : forall fuel nt it, set_new w fuel nt it == s_set w (closes w) fuel nt it.
Proof.
  intros fuel nt it. unfold set_new, s_set, s_make.
  destruct nt; cbn [is_undef]; try apply eqm_refl; (apply bind_ext; [apply eqm_refl|]; intros o;
    destruct it; cbn [is_undef is_null orb]; try apply eqm_refl;
    (apply bind_ext; [apply eqm_refl|]; intros f; destruct (i_callable w f); [|apply eqm_refl];
     eapply eqm_trans; [|intro; symmetry; apply bind_assoc];
     apply bind_ext; [apply iterator_eq|]; intros i;
     apply bind_ext; [|intro; apply eqm_refl]; apply drain_eq; intros; apply eqm_refl)).
Qed.
Lemma map_actual : forall fuel nt it, map_new w fuel nt it == s_map w (closes w) fuel nt it.
Proof.
  intros fuel nt it. unfold map_new, s_map, s_make, s_add_entries.
  destruct nt; cbn [is_undef]; try apply eqm_refl; (apply bind_ext; [apply eqm_refl|]; intros o;
    destruct it; cbn [is_undef is_null orb]; try apply eqm_refl;
    (apply bind_ext; [apply eqm_refl|]; intros f; destruct (i_callable w f); [|apply eqm_refl];
     eapply eqm_trans; [|intro; symmetry; apply bind_assoc];
     apply bind_ext; [apply iterator_eq|]; intros i;
     apply bind_ext; [|intro; apply eqm_refl]; apply drain_eq; intros; apply pair_eq)).
Qed.
Lemma entries_actual : forall fuel t it,
  add_entries w fuel t it == s_add_entries w (closes w) fuel it (i_entry w t).
Proof.
  intros fuel t it. apply bind_ext; [apply iterator_eq|]. intros i. apply drain_eq. intros; apply pair_eq.
Qed.

(** iterators that do not fail *)
Lemma bind_ext_ok : forall A B (m : M (IW w) A) (f g : A -> M (IW w) B),
  (forall a s s', m s = (s', Ok a) -> f a == g a) -> bind m f == bind m g.
Proof. intros A B m f g K s. unfold bind. destruct (m s) as [s' [a|e| |]] eqn:E; auto. exact (K a s s' E s'). Qed.
Lemma sound_of : forall obj, sound_iterators w obj -> forall i s s', s_iterator w obj s = (s', Ok i) -> sound_iter w i.
Proof.
  intros obj SI i s s' E. unfold s_iterator, bind in E.
  destruct (i_method w obj MIterator s) as [s1 [m|e| |]]; try discriminate. exact (SI _ _ _ _ E).
Qed.
Lemma fetch_sound : forall i, sound_iter w i -> forall b, fetch w b i == s_next_value w i.
Proof.
  intros i SI b s. unfold fetch, bind, completion_of.
  destruct (s_next_value w i s) as [s' [r|e| |]] eqn:E; try reflexivity. destruct (SI _ _ _ E).
Qed.
Lemma for_each_sound : forall i, sound_iter w i -> forall b c S fuel (f : S -> val -> M (IW w) S) s,
  for_each w b fuel i f s == for_each w c fuel i f s.
Proof.
  intros i SI b c S fuel f. induction fuel as [|fuel IH]; intros s; [apply eqm_refl|]. cbn [for_each].
  apply bind_ext.
  - intro st. rewrite (fetch_sound i SI), (fetch_sound i SI). reflexivity.
  - intros [v|]; [|apply eqm_refl]. apply bind_ext; [apply eqm_refl|]. exact IH.
Qed.
Lemma make_ext : forall fuel nt it k f g, (forall a b, f fuel it a b == g fuel it a b) ->
  s_make w fuel nt it k f == s_make w fuel nt it k g.
Proof.
  intros fuel nt it k f g H. unfold s_make. destruct nt; try apply eqm_refl;
    (apply bind_ext; [apply eqm_refl|]; intros o; destruct it; try apply eqm_refl;
     (apply bind_ext; [apply eqm_refl|]; intros fn; destruct (i_callable w fn); [|apply eqm_refl];
      apply bind_ext; [apply H|]; intro; apply eqm_refl)).
Qed.
Lemma entries_sound : forall it, sound_iterators w it -> forall b c fuel add,
  s_add_entries w b fuel it add == s_add_entries w c fuel it add.
Proof.
  intros it SI b c fuel add. apply bind_ext_ok. intros i s s' E. apply for_each_sound. exact (sound_of it SI i s s' E).
Qed.
Lemma set_partial : forall fuel nt it, sound_iterators w it -> set_new w fuel nt it == s_set w (just_throw w) fuel nt it.
Proof.
  intros fuel nt it SI. eapply eqm_trans; [apply set_actual|]. apply make_ext. intros a b.
  apply bind_ext_ok. intros i s s' E. apply for_each_sound. exact (sound_of it SI i s s' E).
Qed.
Lemma map_partial : forall fuel nt it, sound_iterators w it -> map_new w fuel nt it == s_map w (just_throw w) fuel nt it.
Proof.
  intros fuel nt it SI. eapply eqm_trans; [apply map_actual|]. apply make_ext. intros a b. apply entries_sound; exact SI.
Qed.
Lemma entries_partial : forall fuel t it, sound_iterators w it ->
  add_entries w fuel t it == s_add_entries w (just_throw w) fuel it (i_entry w t).
Proof. intros fuel t it SI. eapply eqm_trans; [apply entries_actual|]. apply entries_sound; exact SI. Qed.

(** *** Array.from *)
Lemma mapped_eq : forall f t v k, mapped w f t v k == s_map_value w f t v k.
Proof. intros f t v k. destruct f; apply eqm_refl. Qed.
Lemma from_loop_eq : forall fuel i f t a k, 0 <= k -> k + Z.of_nat fuel <= 2 ^ 53 - 1 ->
  on_err (from_loop w fuel i f t a k) (iterator_close w i) == s_from_iter w (closes w) (closes w) fuel i f t a k.
Proof.
  intros fuel i f t a. induction fuel as [|fuel IH]; intros k K0 K; [intro; reflexivity|].
  cbn [from_loop s_from_iter]. unfold max_int.
  destruct (Z.ltb_spec 9007199254740991 k); [lia|]. destruct (Z.leb_spec (2 ^ 53 - 1) k); [lia|].
  eapply eqm_trans; [apply on_err_ext;
    [exact (next_eq _ i (fun v => bind (mapped w f t v k) (fun m => bind (i_create w a k m) (fun _ => from_loop w fuel i f t a (k + 1)))) (i_set_len w a k))
    |intro; apply close_eq]|].
  eapply eqm_trans; [apply on_err_bind|].
  apply bind_ext; [apply fetch_closes|]. intros [v|].
  - eapply eqm_trans; [apply on_err_ext; [intro; symmetry; apply bind_assoc|intro; apply eqm_refl]|].
    eapply eqm_trans; [apply on_err_bind|]. apply bind_ext.
    + apply or_close_ext. apply bind_ext; [apply mapped_eq|]. intro; apply eqm_refl.
    + intros _. eapply eqm_trans; [|apply IH; lia]. apply on_err_ext; [apply eqm_refl|intros e st; symmetry; apply close_eq].
  - exact (on_err_close _ i (i_set_len w a k)).
Qed.
Lemma like_loop_eq : forall n o f t a k, 0 <= k ->
  like_loop w n o f t a k == s_from_like w (map Z.of_nat (seq (Z.to_nat k) n)) o f t a.
Proof.
  induction n as [|n IH]; intros o f t a k K; [apply eqm_refl|]. cbn [like_loop seq map s_from_like].
  rewrite Z2Nat.id by exact K.
  apply bind_ext; [apply eqm_refl|]. intros v. apply bind_ext; [apply mapped_eq|]. intros x.
  apply bind_ext; [apply eqm_refl|]. intros _.
  replace (S (Z.to_nat k)) with (Z.to_nat (k + 1)) by lia. apply IH. lia.
Qed.
Lemma from_actual : forall fuel this items f t, Z.of_nat fuel <= 2 ^ 53 - 1 ->
  array_from w fuel this items f t == s_from w (closes w) (closes w) fuel this items f t.
Proof.
  intros fuel this items f t F. unfold array_from, s_from.
  replace (match f with Undef => true | _ => i_callable w f end)
    with (negb (negb (is_undef f) && negb (i_callable w f))).
  2:{ destruct f; cbn; try reflexivity; apply negb_involutive. }
  destruct (negb (is_undef f) && negb (i_callable w f)); cbn [negb]; [apply eqm_refl|].
  apply bind_ext; [apply eqm_refl|]. intros m.
  assert (A : (rv <- (if i_ctor w this then i_construct w this [] else i_array w 0) ;;
      i <- get_iterator_of w m items ;;
      on_err (from_loop w fuel i f t rv 0) (iterator_close w i) ;;; ret rv)
    == (a <- make_array w this [] 0 ;; i <- s_open w m items ;;
        s_from_iter w (closes w) (closes w) fuel i f t a 0 ;;; ret a)).
  { apply bind_ext; [apply eqm_refl|]. intros a. apply bind_ext; [apply open_eq|]. intros i.
    apply bind_ext; [apply from_loop_eq; lia|]. intro; apply eqm_refl. }
  destruct m; cbn [is_undef negb]; try exact A.
  apply bind_ext; [apply eqm_refl|]. intros len. apply bind_ext; [apply eqm_refl|]. intros a.
  apply bind_ext; [exact (like_loop_eq (Z.to_nat len) (i_object w items) f t a 0 (Z.le_refl 0))|]. intro; apply eqm_refl.
Qed.
Lemma from_iter_sound : forall i, sound_iter w i -> lengths_settable w -> forall b c b' c' fuel f t a k,
  s_from_iter w b c fuel i f t a k == s_from_iter w b' c' fuel i f t a k.
Proof.
  intros i SI LS b c b' c' fuel f t a. induction fuel as [|fuel IH]; intros k; [apply eqm_refl|]. cbn [s_from_iter].
  destruct (2 ^ 53 - 1 <=? k); [apply eqm_refl|]. apply bind_ext.
  - intro st. rewrite (fetch_sound i SI), (fetch_sound i SI). reflexivity.
  - intros [v|].
    + apply bind_ext; [apply eqm_refl|]. intros _. apply IH.
    + intro st. unfold bind, completion_of. destruct (i_set_len w a k st) as [s' [x|e| |]] eqn:E; try reflexivity.
      destruct (LS _ _ _ _ _ E).
Qed.
Lemma from_partial : forall fuel this items f t, sound_iterators w items -> lengths_settable w -> Z.of_nat fuel <= 2 ^ 53 - 1 ->
  array_from w fuel this items f t == s_from w (just_throw w) (just_throw w) fuel this items f t.
Proof.
  intros fuel this items f t SI LS F. eapply eqm_trans; [apply from_actual; exact F|]. unfold s_from.
  destruct (match f with Undef => true | _ => i_callable w f end); [|apply eqm_refl].
  apply bind_ext; [apply eqm_refl|]. intros m. destruct m; try apply eqm_refl;
    (apply bind_ext; [apply eqm_refl|]; intros a; apply bind_ext_ok; intros i st st' E;
     apply bind_ext; [apply from_iter_sound; [exact (SI _ _ _ _ E)|exact LS]|]; intro; apply eqm_refl).
Qed.
(** an array-like object has no iterator: no condition is needed *)
Lemma from_like : forall fuel this items f t s s',
  i_method w items MIterator s = (s', Ok Undef) -> forall b c,
  array_from w fuel this items f t s = s_from w b c fuel this items f t s.
Proof.
  intros fuel this items f t s s' E b c. unfold array_from, s_from.
  replace (match f with Undef => true | _ => i_callable w f end)
    with (negb (negb (is_undef f) && negb (i_callable w f))).
  2:{ destruct f; cbn; try reflexivity; apply negb_involutive. }
  destruct (negb (is_undef f) && negb (i_callable w f)); cbn [negb]; [reflexivity|].
  assert (B : forall A (k1 k2 : val -> M (IW w) A), k1 Undef == k2 Undef ->
    bind (i_method w items MIterator) k1 s = bind (i_method w items MIterator) k2 s).
  { intros A k1 k2 K. unfold bind. rewrite E. apply K. }
  apply B. cbn [is_undef negb].
  apply bind_ext; [apply eqm_refl|]. intros len. apply bind_ext; [apply eqm_refl|]. intros a.
  apply bind_ext; [exact (like_loop_eq (Z.to_nat len) (i_object w items) f t a 0 (Z.le_refl 0))|]. intro; apply eqm_refl.
Qed.
Lemma of_loop_eq : forall a args k, 0 <= k ->
  of_loop w a k args ==
  (fix all (l : list (Z * val)) : M (IW w) unit :=
     match l with [] => ret tt | (k, v) :: l => i_create w a k v ;;; all l end)
    (combine (map Z.of_nat (seq (Z.to_nat k) (length args))) args).
Proof.
  intros a args. induction args as [|v args IH]; intros k K; [apply eqm_refl|].
  cbn [of_loop length seq map combine]. rewrite Z2Nat.id by exact K.
  apply bind_ext; [apply eqm_refl|]. intros _.
  replace (S (Z.to_nat k)) with (Z.to_nat (k + 1)) by lia. apply IH. lia.
Qed.
Lemma of_ok : forall this args, array_of w this args == s_of w this args.
Proof.
  intros this args. unfold array_of, s_of. apply bind_ext; [apply eqm_refl|]. intros a.
  apply bind_ext; [|intro; apply eqm_refl].
  unfold indices. rewrite Nat2Z.id. exact (of_loop_eq a args 0 (Z.le_refl 0)).
Qed.

Lemma list_ok : (forall a k v s s' e, i_create w a k v s <> (s', Throw e)) ->
  forall fuel it, array_from_iterable w fuel it == s_list w fuel it.
Proof.
  intros C fuel it. unfold array_from_iterable, s_list. apply bind_ext; [apply eqm_refl|]. intros a.
  apply bind_ext; [apply iterator_eq|]. intros i.
  assert (I : forall v k, ignore w (i_create w a k v) == i_create w a k v).
  { intros v k s. unfold ignore, on_err. destruct (i_create w a k v s) as [s' [x|e| |]] eqn:E; try reflexivity. destruct (C _ _ _ _ _ _ E). }
  assert (L : forall k, bind (drain w fuel i (fun k v => ignore w (i_create w a k v) ;;; ret (k + 1)) k) (fun _ => ret a)
              == s_list_loop w fuel i a k).
  2:{ exact (L 0). }
  induction fuel as [|fuel IH]; intros k; [apply eqm_refl|].
  eapply eqm_trans; [apply bind_ext; [exact (next_eq _ i (fun v => bind (ignore w (i_create w a k v) ;;; ret (k + 1))
    (drain w fuel i (fun k v => ignore w (i_create w a k v) ;;; ret (k + 1)))) (ret k))|intro; apply eqm_refl]|].
  eapply eqm_trans; [apply bind_assoc|]. cbn [s_list_loop]. apply bind_ext; [apply eqm_refl|]. intros [v|]; [|apply eqm_refl].
  eapply eqm_trans; [apply bind_assoc|]. eapply eqm_trans; [apply bind_assoc|].
  apply bind_ext; [apply I|]. intros u s. exact (IH (k + 1) s).
Qed.

(** *** Array patterns *)
Lemma element_ok : forall i d s, state_step w i d s = s_element w i d s.
Proof.
  intros i d s. unfold state_step, s_element. destruct d; [reflexivity|].
  unfold iterator_step, iterator_next, iterator_complete, iterator_value, s_next_value, bind.
  change (call_method w (snd i) (fst i) s) with (s_call0 w (snd i) (fst i) s).
  destruct (s_call0 w (snd i) (fst i) s) as [s1 [r|e| |]]; try reflexivity.
  destruct r; cbn [is_object ret throw]; try reflexivity.
  destruct (i_get w (Ref x) KDone s1) as [s2 [dv|e| |]]; try reflexivity.
  cbn [ret]. destruct (i_truthy w dv); cbn [ret]; [reflexivity|].
  destruct (i_get w (Ref x) KValue s2) as [s3 [v|e| |]]; reflexivity.
Qed.
Lemma rest_loop_eq : values_readable w -> arrays_work w -> forall fuel i a k d s,
  match rest_loop w fuel i a k d s with
  | (s, (d, Ok _)) => (s, (d, Ok a))
  | (s, (d, Throw e)) => (s, (d, Throw e))
  | (s, (d, Bad)) => (s, (d, Bad))
  | (s, (d, Deep)) => (s, (d, Deep))
  end = s_rest w fuel i a k d s.
Proof.
  intros VR [_ CR] fuel i a. induction fuel as [|fuel IH]; intros k d s; [reflexivity|].
  cbn [rest_loop s_rest]. destruct d; [reflexivity|].
  unfold iterator_step, iterator_next, iterator_complete, iterator_value, s_next_value, bind.
  change (call_method w (snd i) (fst i) s) with (s_call0 w (snd i) (fst i) s).
  destruct (s_call0 w (snd i) (fst i) s) as [s1 [r|e| |]]; try reflexivity.
  destruct r; cbn [is_object ret throw]; try reflexivity.
  destruct (i_get w (Ref x) KDone s1) as [s2 [dv|e| |]]; try reflexivity.
  cbn [ret]. destruct (i_truthy w dv); cbn [ret]; [reflexivity|].
  destruct (i_get w (Ref x) KValue s2) as [s3 [v|e| |]] eqn:E; try reflexivity.
  - cbn [ret]. destruct (CR a k v s3) as [s4 C]. rewrite C. apply IH.
  - destruct (VR _ _ _ _ E).
Qed.
Lemma rest_ok : values_readable w -> arrays_work w -> forall fuel i d s,
  state_rest w fuel i d s =
  match i_array w 0 s with
  | (s', Ok a) => s_rest w fuel i a 0 d s'
  | _ => state_rest w fuel i d s
  end.
Proof.
  intros VR AW fuel i d s. unfold state_rest at 1. destruct AW as [AN CR].
  destruct (AN 0 s) as [s' [a E]]. rewrite E. apply rest_loop_eq; [exact VR|]. split; assumption.
Qed.

(** *** Array iterators *)
Variable typed : val -> option (M (IW w) (option Z)).
Lemma anext_eq : forall o kind i s,
  match array_next w typed o kind i s, s_anext w typed o kind (At i) s with
  | (s1, (c, r1)), (s2, (a, r2)) =>
      s1 = s2 /\ r1 = r2 /\ (forall x, r1 = Ok (Some x) -> a = At c /\ c = i + 1)
  end.
Proof.
  intros o kind i s. unfold array_next, s_anext, next_len, bind.
  destruct (typed o) as [m|].
  - destruct (m s) as [s1 [[n|]|e| |]]; cbn [ret throw]; try (repeat split; congruence).
    destruct (n <=? i); cbn [ret]; [repeat split; congruence|].
    destruct kind; cbn [ret]; [repeat split; congruence| |];
      (destruct (i_get w o (KAt i) s1) as [s2 [v|e| |]]; cbn [ret]; repeat split; congruence).
  - destruct (i_len w o s) as [s1 [n|e| |]]; cbn [ret throw]; try (repeat split; congruence).
    destruct (n <=? i); cbn [ret]; [repeat split; congruence|].
    destruct kind; cbn [ret]; [repeat split; congruence| |];
      (destruct (i_get w o (KAt i) s1) as [s2 [v|e| |]]; cbn [ret]; repeat split; congruence).
Qed.
Lemma arun_ok : forall env n o kind i s,
  until_over (array_run w typed env n o kind i s) = until_over (s_arun w typed env n o kind (At i) s).
Proof.
  intros env n o kind. induction n as [|n IH]; intros i s; [reflexivity|]. cbn [array_run s_arun].
  pose proof (anext_eq o kind i s) as A.
  destruct (array_next w typed o kind i s) as [s1 [c r1]]. destruct (s_anext w typed o kind (At i) s) as [s2 [a r2]].
  destruct A as [-> [-> A]]. destruct r2 as [[x|]|e| |]; try reflexivity.
  destruct (A x eq_refl) as [-> ->]. cbn [until_over]. f_equal. apply IH.
Qed.
(** after the end, as long as the array does not grow beyond the position *)
Lemma arun_over : forall env n o kind c s,
  typed o = None -> (forall t, exists t' len, i_len w o t = (t', Ok len) /\ len <= c) ->
  array_run w typed env n o kind c s = repeat (Ok None) n.
Proof.
  intros env n o kind. induction n as [|n IH]; intros c s T L; [reflexivity|]. cbn [array_run repeat].
  unfold array_next, next_len, bind. rewrite T. destruct (L s) as [t [len [E B]]]. rewrite E.
  destruct (Z.leb_spec len c); [|lia]. cbn [ret]. f_equal. apply IH; [exact T|].
  intros u. destruct (L u) as [u' [l [EL BL]]]. exists u', l. split; [exact EL|lia].
Qed.
End S.
