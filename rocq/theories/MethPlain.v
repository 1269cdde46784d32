(** splice and unshift on plain arrays: the contents they leave. *)
From Coq Require Import List ZArith Bool Lia.
From Verif Require Import MethModel MethSpec MethProofs.
Import ListNotations.
Local Open Scope Z_scope.

(** *** A world with one plain array, object 0, and the array a method makes, object 1.
    No element is inherited, no property is read-only, nothing is a proxy. *)
Record plain := mkP { src : Z -> option val; slen : Z; dst : Z -> option val; dlen : Z }.
Definition put (f : Z -> option val) (i : Z) (v : option val) : Z -> option val := fun j => if j =? i then v else f j.
Definition cut (f : Z -> option val) (n : Z) : Z -> option val := fun j => if j <? n then f j else None.
Definition read (p : plain) (o : val) : Z -> option val := match o with Ref 0 => src p | Ref 1 => dst p | _ => fun _ => None end.
Definition length_of (p : plain) (o : val) : Z := match o with Ref 0 => slen p | Ref 1 => dlen p | _ => 0 end.
Definition write (p : plain) (o : val) (f : Z -> option val) (n : Z) : plain :=
  match o with
  | Ref 0 => mkP f n (dst p) (dlen p)
  | Ref 1 => mkP (src p) (slen p) f n
  | _ => p
  end.
Definition value (x : option val) : val := match x with Some v => v | None => Undef end.
Definition present (x : option val) : bool := match x with Some _ => true | None => false end.
Definition store (p : plain) (o : val) (k : key) (v : val) : plain :=
  match k, v with
  | Idx i, _ => write p o (put (read p o) i (Some v)) (Z.max (length_of p o) (i + 1))
  | Name Length, Num n => write p o (cut (read p o) n) n
  | _, _ => p
  end.
Definition plain_world (conv : val -> xint) : world := {|
  W := plain;
  to_object := fun v => ret v;
  len_of := fun o p => (p, Ok (length_of p o));
  to_int := fun v => ret (conv v);
  to_str := fun _ => throw TypeError;
  is_array := fun _ => ret true;
  has := fun o k p => (p, Ok (match k with Idx i => present (read p o i) | Name _ => true end));
  get := fun o k p => (p, Ok (match k with Idx i => value (read p o i) | Name Length => Num (length_of p o) | Name _ => Undef end));
  set := fun o k v p => (store p o k v, Ok tt);
  del := fun o k p => (match k with Idx i => write p o (put (read p o) i None) (length_of p o) | Name _ => p end, Ok tt);
  create := fun o k v p => (store p o k v, Ok tt);
  call := fun _ _ _ => throw TypeError;
  construct := fun _ _ => throw TypeError;
  new_array := fun n p => (write p (Ref 1) (fun _ => None) n, Ok (Ref 1));
  invoke := fun _ _ => throw TypeError;
  foreign_array := fun _ => ret false;
  callable := fun _ => false;
  is_ctor := fun _ => false;
  truthy := fun _ => false;
  same_zero := fun _ _ => false;
  strict_eq := fun _ _ => false
|}.
(** no element at a negative index or from the length on *)
Definition dense_range (p : plain) : Prop := forall i, i < 0 \/ slen p <= i -> src p i = None.

Section P.
Variable conv : val -> xint.
Notation pw := (plain_world conv).

Definition same_dst (p q : plain) : Prop := dst q = dst p /\ dlen q = dlen p.
Lemma same_dst_trans p q r : same_dst p q -> same_dst q r -> same_dst p r.
Proof. unfold same_dst. intros [A B] [C D]. split; congruence. Qed.

Lemma each_app {W S} l l' (f : Z -> S -> M W S) : forall s, each (l ++ l') f s == bind (each l f s) (each l' f).
Proof.
  induction l as [|k l IH]; intro s; [apply eqm_sym; apply bind_ret_l|]. cbn [app each].
  eapply eqm_trans; [|apply eqm_sym; apply bind_assoc]. apply bind_same; intro. apply IH.
Qed.
Lemma each_snoc {W} n a d (f : Z -> M W unit) :
  each_ (steps (Datatypes.S n) a d) f == bind (each_ (steps n a d) f) (fun _ => f (a + d * Z.of_nat n)).
Proof.
  unfold each_. rewrite steps_snoc. eapply eqm_trans; [apply each_app|]. apply bind_same; intros []. apply bind_ret_r with (m := f (a + d * Z.of_nat n)).
Qed.

Lemma move_plain from to p : exists q, move pw (Ref 0) from to p = (q, Ok tt) /\
  (forall i, src q i = if i =? to then src p from else src p i) /\ same_dst p q.
Proof.
  unfold move. cbn. destruct (src p from) as [v|] eqn:E; cbn; eexists; (split; [reflexivity|]); cbn; split; try (split; reflexivity).
  intro i. rewrite E. reflexivity.
Qed.

(** a run of moves whose sources are not written before they are read *)
Lemma moves_plain d a from to n p : 
  (forall i j, 0 <= i < j -> j < Z.of_nat n -> to (a + d * i) <> from (a + d * j)) ->
  (forall i j, 0 <= i < j -> j < Z.of_nat n -> to (a + d * i) <> to (a + d * j)) ->
  exists q, each_ (steps n a d) (fun k => move pw (Ref 0) (from k) (to k)) p = (q, Ok tt) /\ same_dst p q /\
   (forall j, 0 <= j < Z.of_nat n -> src q (to (a + d * j)) = src p (from (a + d * j))) /\
   (forall i, (forall j, 0 <= j < Z.of_nat n -> i <> to (a + d * j)) -> src q i = src p i).
Proof.
  intros R T. induction n.
  - exists p. split; [reflexivity|]. split; [split; reflexivity|]. split; intros; [lia|reflexivity].
  - destruct IHn as (q & E & D & Q & K).
    { intros i j H1 H2. apply R; lia. } { intros i j H1 H2. apply T; lia. }
    destruct (move_plain (from (a + d * Z.of_nat n)) (to (a + d * Z.of_nat n)) q) as (q' & E' & S' & D').
    exists q'. split.
    { rewrite (each_snoc n a d _ p). rewrite bind_at, E. exact E'. }
    split; [eapply same_dst_trans; eassumption|]. split.
    + intros j Hj. rewrite S'. destruct (Z.eqb_spec (to (a + d * j)) (to (a + d * Z.of_nat n))) as [Eq|Ne].
      * assert (j = Z.of_nat n). { destruct (Z.eq_dec j (Z.of_nat n)); [assumption|]. exfalso. apply (T j (Z.of_nat n)); [lia|lia|exact Eq]. }
        subst j. rewrite K; [reflexivity|]. intros j Hj' C. symmetry in C. revert C. apply R; lia.
      * apply Q. destruct (Z.eq_dec j (Z.of_nat n)) as [->|]; [congruence|lia].
    + intros i Hi. rewrite S'. destruct (Z.eqb_spec i (to (a + d * Z.of_nat n))) as [Eq|_]; [exfalso; apply (Hi (Z.of_nat n)); [lia|exact Eq]|].
      apply K. intros j Hj. apply Hi. lia.
Qed.
Lemma dels_plain a d n at_ p :
  exists q, each_ (steps n a d) (fun k => del pw (Ref 0) (Idx (at_ k))) p = (q, Ok tt) /\ same_dst p q /\
   (forall j, 0 <= j < Z.of_nat n -> src q (at_ (a + d * j)) = None) /\
   (forall i, (forall j, 0 <= j < Z.of_nat n -> i <> at_ (a + d * j)) -> src q i = src p i).
Proof.
  induction n.
  - exists p. split; [reflexivity|]. split; [split; reflexivity|]. split; intros; [lia|reflexivity].
  - destruct IHn as (q & E & D & Q & K). eexists. split.
    { rewrite (each_snoc n a d _ p). rewrite bind_at, E. cbn. reflexivity. }
    split; [exact D|]. cbn. unfold put. split.
    + intros j Hj. destruct (Z.eqb_spec (at_ (a + d * j)) (at_ (a + d * Z.of_nat n))); [reflexivity|].
      apply Q. destruct (Z.eq_dec j (Z.of_nat n)) as [->|]; [congruence|lia].
    + intros i Hi. destruct (Z.eqb_spec i (at_ (a + d * Z.of_nat n))) as [Eq|_]; [exfalso; apply (Hi (Z.of_nat n)); [lia|exact Eq]|].
      apply K. intros j Hj. apply Hi. lia.
Qed.
Lemma set_items_plain items : forall k p, exists q n, set_items pw (Ref 0) k items p = (q, Ok n) /\ same_dst p q /\
   (forall i, k <= i < k + Z.of_nat (length items) -> src q i = nth_error items (Z.to_nat (i - k))) /\
   (forall i, ~ (k <= i < k + Z.of_nat (length items)) -> src q i = src p i).
Proof.
  induction items as [|v items IH]; intros k p.
  - exists p, k. split; [reflexivity|]. split; [split; reflexivity|]. split; intros; [cbn in H; lia|reflexivity].
  - cbn [set_items]. destruct (IH (k + 1) (store p (Ref 0) (Idx k) v)) as (q & n & E & D & Q & K).
    exists q, n. split; [rewrite bind_at; cbn [set plain_world]; exact E|]. split; [exact D|]. cbn [length]. split.
    + intros i Hi. destruct (Z.eq_dec i k) as [->|N].
      * rewrite K by lia. cbn. unfold put. rewrite Z.eqb_refl. replace (k - k) with 0 by ring. reflexivity.
      * rewrite Q by lia. replace (Z.to_nat (i - k)) with (Datatypes.S (Z.to_nat (i - (k + 1)))) by lia. reflexivity.
    + intros i Hi. rewrite K by lia. cbn. unfold put. destruct (Z.eqb_spec i k); [lia|reflexivity].
Qed.

(** what unshift leaves *)
Lemma unshift_plain args p : dense_range p -> 0 <= slen p -> slen p + Z.of_nat (length args) <= limit ->
  exists q, p_unshift pw (Ref 0) args p = (q, Ok (Num (slen p + Z.of_nat (length args)))) /\
    slen q = slen p + Z.of_nat (length args) /\
    forall i, 0 <= i -> src q i = if i <? Z.of_nat (length args) then nth_error args (Z.to_nat i) else src p (i - Z.of_nat (length args)).
Proof.
  intros DR L0 L1. set (n := Z.of_nat (length args)) in *. unfold p_unshift, argc. fold n.
  rewrite bind_at. cbn [to_object plain_world]. rewrite ret_at, bind_at. cbn [len_of plain_world length_of].
  set (len := slen p) in *. rewrite bind_at.
  assert (B : exists q u, (if n >? 0
     then if len + n >? max_int then throw TypeError
       else loop_ (Z.to_nat (len + 1)) (fun k => move pw (Ref 0) (k - 1) (k + n - 1) ;;; ret (k - 1)) len ;;;
            set_items pw (Ref 0) 0 args ;;; ret tt
     else ret tt) p = (q, Ok u) /\ forall i, 0 <= i -> src q i = if i <? n then nth_error args (Z.to_nat i) else src p (i - n)).
  { rewrite Z.gtb_ltb. destruct (Z.ltb_spec 0 n) as [Hn|Hn].
    - change max_int with limit. rewrite Z.gtb_ltb. destruct (Z.ltb_spec limit (len + n)) as [Hb|_]; [exfalso; lia|].
      rewrite bind_at.
      pose proof (loop_rep (W := W pw) (-1) (fun k => k) (fun k => move pw (Ref 0) (k - 1) (k + n - 1) ;;; ret (k - 1))
        (fun k => move pw (Ref 0) (k - 1) (k + n - 1)) (Z.to_nat (len + 1)) len) as L. cbv beta in L.
      rewrite L by (intros i Hi; apply eqm_refl). clear L.
      destruct (moves_plain (-1) len (fun k => k - 1) (fun k => k + n - 1) (Z.to_nat (len + 1)) p) as (q & E & _ & Q & K).
      { intros; lia. } { intros; lia. }
      rewrite bind_at, E, ret_at. rewrite bind_at.
      destruct (set_items_plain args 0 q) as (q2 & z & E2 & _ & Q2 & K2). rewrite E2.
      eexists q2, tt. split; [reflexivity|]. intros i Hi. fold n in Q2, K2. destruct (Z.ltb_spec i n) as [A|A].
      + rewrite Q2 by lia. f_equal. lia.
      + rewrite K2 by lia. destruct (Z.ltb_spec i (len + n)) as [C|C].
        * assert (X := Q (len - (i - n) - 1) ltac:(lia)). cbv beta in X.
          replace (len + -1 * (len - (i - n) - 1) + n - 1) with i in X by ring. etransitivity; [exact X|]. f_equal. lia.
        * rewrite K by (intros; lia). rewrite !DR; [reflexivity| |]; right; unfold len in *; lia.
    - assert (Z.of_nat (length args) = 0) by lia. exists p, tt. split; [reflexivity|].
      intros i Hi. destruct (Z.ltb_spec i n); [lia|]. f_equal. lia. }
  destruct B as (q & u & -> & Q). cbn [set plain_world store write read]. rewrite bind_at. cbn [set plain_world store write read].
  rewrite ret_at. eexists. split; [reflexivity|]. cbn. split; [reflexivity|]. intros i Hi. unfold cut.
  destruct (Z.ltb_spec i (len + n)); [apply Q; exact Hi|].
  destruct (Z.ltb_spec i n); [lia|]. symmetry. apply DR. right. unfold len in *. lia.
Qed.

(** the elements that splice gives back *)
Lemma taken_plain start dc n : forall p, 0 <= start -> (forall i, dst p i = None) -> dlen p = dc ->
  exists q, each_ (steps n 0 1) (fun k =>
      b <- has pw (Ref 0) (Idx (start + k)) ;;
      if b then v <- get pw (Ref 0) (Idx (start + k)) ;; create pw (Ref 1) (Idx k) v else ret tt) p = (q, Ok tt) /\
    src q = src p /\ slen q = slen p /\
    (forall i, dst q i = if (0 <=? i) && (i <? Z.of_nat n) then src p (start + i) else None).
Proof.
  induction n; intros p Hs Hd Hl.
  - exists p. split; [reflexivity|]. split; [reflexivity|]. split; [reflexivity|]. intro i.
    destruct (Z.leb_spec 0 i); destruct (Z.ltb_spec i (Z.of_nat 0)); try (exfalso; lia); apply Hd.
  - destruct (IHn p Hs Hd Hl) as (q & E & S0 & S1 & Q). set (kk := 0 + 1 * Z.of_nat n).
    assert (Kn : kk = Z.of_nat n) by (unfold kk; lia).
    rewrite (each_snoc (W := W pw) n 0 1 _ p), bind_at, E. fold kk.
    rewrite bind_at. cbn [has plain_world read]. rewrite S0.
    destruct (src p (start + kk)) as [v|] eqn:V; cbn [present].
    + rewrite bind_at. cbn [get plain_world read]. rewrite S0, V. cbn [value create plain_world store write read].
      eexists. split; [reflexivity|]. split; [exact S0|]. split; [exact S1|]. cbn [dst write read]. clearbody kk. unfold put. intro i. rewrite Q.
      destruct (Z.eqb_spec i kk) as [->|N].
      * destruct (Z.leb_spec 0 kk); [|lia]. destruct (Z.ltb_spec kk (Z.of_nat (Datatypes.S n))); [|lia]. symmetry. exact V.
      * destruct (Z.leb_spec 0 i); destruct (Z.ltb_spec i (Z.of_nat n)); destruct (Z.ltb_spec i (Z.of_nat (Datatypes.S n))); try lia; reflexivity.
    + exists q. split; [reflexivity|]. split; [exact S0|]. split; [exact S1|]. intro i. rewrite Q.
      destruct (Z.eq_dec i kk) as [->|N].
      * destruct (Z.leb_spec 0 kk); [|lia]. destruct (Z.ltb_spec kk (Z.of_nat n)); [lia|].
        destruct (Z.ltb_spec kk (Z.of_nat (Datatypes.S n))); [|lia]. symmetry. exact V.
      * destruct (Z.leb_spec 0 i); destruct (Z.ltb_spec i (Z.of_nat n)); destruct (Z.ltb_spec i (Z.of_nat (Datatypes.S n))); try lia; reflexivity.
Qed.

(** the number of deleted elements *)
Definition deleted (args : list val) (len start : Z) : Z :=
  match args with [] => 0 | [_] => len - start | _ :: v :: _ => count (conv v) (len - start) end.

Lemma splice_plain args p :
  let start := relative (conv (nth 0 args Undef)) (slen p) in
  let dc := deleted args (slen p) start in
  let items := skipn 2 args in
  let ic := Z.of_nat (length items) in
  dense_range p -> 0 <= slen p <= limit -> slen p + ic - dc <= limit ->
  exists q, p_splice pw (Ref 0) args p = (q, Ok (Ref 1)) /\
    slen q = slen p - dc + ic /\ dlen q = dc /\
    (forall i, 0 <= i -> src q i = if i <? start then src p i
       else if i <? start + ic then nth_error items (Z.to_nat (i - start)) else src p (i - ic + dc)) /\
    (forall i, dst q i = if (0 <=? i) && (i <? dc) then src p (start + i) else None).
Proof.
  intros start dc items ic DR L0 L1. set (len := slen p) in *.
  assert (Hs : 0 <= start <= len) by (apply relative_range; lia).
  assert (Hd : 0 <= dc <= len - start).
  { unfold dc, deleted. destruct args as [|v0 [|v1 args]]; try lia. unfold count. destruct (conv v1); lia. }
  unfold p_splice. rewrite bind_at. cbn [to_object plain_world]. rewrite ret_at, bind_at. cbn [len_of plain_world length_of]. fold len.
  rewrite bind_at. cbn [to_int plain_world]. rewrite ret_at. unfold arg at 1.
  rewrite (clamp_bind pw (conv (nth 0 args Undef)) len) by exact L0. fold start. cbn zeta.
  rewrite bind_at. rewrite (delete_count_ok pw args len start L0 Hs).
  assert (Ed : s_delete_count pw args len start p = (p, Ok dc)).
  { unfold s_delete_count, dc, deleted. destruct args as [|v0 [|v1 args']]; reflexivity. }
  rewrite Ed. rewrite insert_count_ok. change (items_of args) with items. fold ic.
  change max_int with limit. rewrite Z.gtb_ltb. destruct (Z.ltb_spec limit (len + ic - dc)) as [Hb|_]; [exfalso; lia|].
  rewrite bind_at.
  assert (Es : species_create pw (Ref 0) dc p = (mkP (src p) len (fun _ => None) dc, Ok (Ref 1))) by reflexivity.
  rewrite Es. clear Es. set (p1 := mkP (src p) len (fun _ => None) dc).
  rewrite bind_at.
  pose proof (loop_rep (W := W pw) 1 (fun k => k) (fun k =>
      b <- has pw (Ref 0) (Idx (start + k)) ;;
      (if b then v <- get pw (Ref 0) (Idx (start + k)) ;; create pw (Ref 1) (Idx k) v else ret tt) ;;;
      ret (k + 1)) (fun k => 
      b <- has pw (Ref 0) (Idx (start + k)) ;;
      if b then v <- get pw (Ref 0) (Idx (start + k)) ;; create pw (Ref 1) (Idx k) v else ret tt) (rounds 0 dc) 0) as L. cbv beta in L.
  rewrite L by (intros i Hi; apply eqm_sym, bind_assoc). clear L. rewrite bind_at.
  destruct (taken_plain start dc (rounds 0 dc) p1 ltac:(lia) (fun _ => eq_refl) eq_refl) as (p2 & E2 & S2 & N2 & Q2). rewrite E2, ret_at.
  replace (Z.of_nat (rounds 0 dc)) with dc in Q2 by (unfold rounds; lia).
  rewrite bind_at. cbn [set plain_world store write read].
  set (p3 := mkP (src p2) (slen p2) (cut (dst p2) dc) dc).
  assert (Q3 : forall i, dst p3 i = if (0 <=? i) && (i <? dc) then src p (start + i) else None).
  { intro i. cbn. unfold cut. rewrite Q2. destruct (Z.ltb_spec i dc); [rewrite andb_true_r|rewrite andb_false_r]; reflexivity. }
  assert (S3 : src p3 = src p) by (cbn; rewrite S2; reflexivity).
  assert (D3 : dlen p3 = dc) by reflexivity.
  clearbody p3. clear p2 E2 S2 N2 Q2.
  rewrite bind_at.
  (* the elements behind *)
  assert (B : exists q, (if ic <? dc then
       loop_ (rounds start len) (fun k => move pw (Ref 0) (k + dc) (k + ic) ;;; ret (k + 1)) start ;;;
       loop_ (rounds (len - dc + ic) len) (fun k => del pw (Ref 0) (Idx (k - 1)) ;;; ret (k - 1)) len ;;;
       ret tt
     else if ic >? dc then
       loop_ (Z.to_nat (len - dc - start + 1)) (fun k => move pw (Ref 0) (k + dc - 1) (k + ic - 1) ;;; ret (k - 1)) (len - dc) ;;;
       ret tt
     else ret tt) p3 = (q, Ok tt) /\ same_dst p3 q /\
     (forall i, 0 <= i < start -> src q i = src p i) /\ (forall i, start + ic <= i < len - dc + ic -> src q i = src p (i - ic + dc))).
  { destruct (Z.ltb_spec ic dc) as [A|A].
    - rewrite bind_at.
      pose proof (loop_rep (W := W pw) 1 (fun k => k) (fun k => move pw (Ref 0) (k + dc) (k + ic) ;;; ret (k + 1))
        (fun k => move pw (Ref 0) (k + dc) (k + ic)) (rounds start len) start) as L. cbv beta in L.
      rewrite L by (intros; apply eqm_refl). clear L.
      destruct (moves_plain 1 start (fun k => k + dc) (fun k => k + ic) (rounds start len) p3) as (q & E & D & Q & K).
      { intros; lia. } { intros; lia. }
      rewrite bind_at, E, ret_at, bind_at.
      pose proof (loop_rep (W := W pw) (-1) (fun k => k) (fun k => del pw (Ref 0) (Idx (k - 1)) ;;; ret (k - 1))
        (fun k => del pw (Ref 0) (Idx (k - 1))) (rounds (len - dc + ic) len) len) as L. cbv beta in L.
      rewrite L by (intros; apply eqm_refl). clear L.
      destruct (dels_plain len (-1) (rounds (len - dc + ic) len) (fun k => k - 1) q) as (q2 & E2 & D2 & Q2 & K2).
      rewrite bind_at, E2, !ret_at. exists q2. split; [reflexivity|]. split; [eapply same_dst_trans; eassumption|].
      assert (RL : Z.of_nat (rounds start len) = len - start) by (unfold rounds; lia).
      assert (RD : Z.of_nat (rounds (len - dc + ic) len) = dc - ic) by (unfold rounds; lia).
      split.
      + intros i Hi. rewrite K2 by (intros; lia). rewrite K by (intros; unfold ic; lia). rewrite S3. reflexivity.
      + intros i Hi. rewrite K2 by (intros; lia). assert (X := Q (i - ic - start) ltac:(unfold ic in *; lia)).
        replace (start + 1 * (i - ic - start) + ic) with i in X by ring. rewrite X, S3. f_equal. ring.
    - rewrite Z.gtb_ltb. destruct (Z.ltb_spec dc ic) as [B|B].
      + rewrite bind_at.
        pose proof (loop_rep (W := W pw) (-1) (fun k => k) (fun k => move pw (Ref 0) (k + dc - 1) (k + ic - 1) ;;; ret (k - 1))
          (fun k => move pw (Ref 0) (k + dc - 1) (k + ic - 1)) (Z.to_nat (len - dc - start + 1)) (len - dc)) as L. cbv beta in L.
        rewrite L by (intros; apply eqm_refl). clear L.
        destruct (moves_plain (-1) (len - dc) (fun k => k + dc - 1) (fun k => k + ic - 1) (Z.to_nat (len - dc - start + 1)) p3) as (q & E & D & Q & K).
        { intros; lia. } { intros; lia. }
        rewrite bind_at, E, !ret_at. exists q. split; [reflexivity|]. split; [exact D|]. split.
        * intros i Hi. rewrite K by (intros; lia). rewrite S3. reflexivity.
        * intros i Hi. assert (X := Q (len - dc - (i - ic + 1)) ltac:(lia)).
          replace (len - dc + -1 * (len - dc - (i - ic + 1)) + ic - 1) with i in X by ring. rewrite X, S3. f_equal. ring.
      + exists p3. split; [reflexivity|]. split; [split; reflexivity|]. rewrite S3. split; [reflexivity|].
        intros i Hi. f_equal. lia. }
  destruct B as (q & -> & D & QL & QR).
  rewrite bind_at. fold items.
  destruct (set_items_plain items start q) as (q2 & z & E2 & D2 & Q2 & K2). rewrite E2. fold ic in Q2, K2.
  rewrite bind_at. cbn [set plain_world store write read]. rewrite ret_at. eexists. split; [reflexivity|]. cbn.
  split; [reflexivity|]. destruct D as [D Dl]. destruct D2 as [D2 Dl2].
  split; [congruence|]. split.
  - intros i Hi. unfold cut. destruct (Z.ltb_spec i (len - dc + ic)) as [A|A].
    + destruct (Z.ltb_spec i start); [rewrite K2 by lia; apply QL; lia|].
      destruct (Z.ltb_spec i (start + ic)); [apply Q2; lia|]. rewrite K2 by lia. apply QR. lia.
    + destruct (Z.ltb_spec i start); [lia|]. destruct (Z.ltb_spec i (start + ic)); [lia|].
      symmetry. apply DR. right. fold len. lia.
  - intro i. rewrite D2, D. apply Q3.
Qed.
End P.
