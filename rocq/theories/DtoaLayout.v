(** * The texts: proofs *)
Require Import ZArith QArith Qabs Qpower List Bool Lia.
From Verif Require Import DtoaModel DtoaSpec DtoaProofs DtoaText DtoaShort.
Import ListNotations.
Local Open Scope Z_scope.

(** ** Lists *)

Lemma digit_firstn : forall n ds, digit_list 10 ds -> digit_list 10 (firstn n ds).
Proof.
  intros n ds F. unfold digit_list in *. rewrite Forall_forall in *.
  intros x I. apply F. rewrite <- (firstn_skipn n ds). apply in_or_app. now left.
Qed.

Lemma digit_skipn : forall n ds, digit_list 10 ds -> digit_list 10 (skipn n ds).
Proof.
  intros n ds F. unfold digit_list in *. rewrite Forall_forall in *.
  intros x I. apply F. rewrite <- (firstn_skipn n ds). apply in_or_app. now right.
Qed.

Lemma text_length : forall ds, length (text ds) = length ds.
Proof. intros; apply map_length. Qed.

Lemma copy_text : forall n ds, digit_list 10 ds -> (n <= length ds)%nat ->
  copy n ds = Some (firstn n (text ds), skipn n ds).
Proof.
  intros n ds F L. rewrite copy_ok by assumption.
  rewrite map_ch by (apply digit_firstn; assumption). unfold text. rewrite firstn_map. reflexivity.
Qed.

Lemma copy_all : forall ds, digit_list 10 ds -> copy (length ds) ds = Some (text ds, []).
Proof.
  intros ds F. rewrite copy_text by (try assumption; lia).
  rewrite skipn_all. rewrite <- (text_length ds), firstn_all. reflexivity.
Qed.

Lemma copy_rest : forall n ds, digit_list 10 ds -> (n <= length ds)%nat ->
  copy (length ds - n) (skipn n ds) = Some (skipn n (text ds), []).
Proof.
  intros n ds F L.
  replace (length ds - n)%nat with (length (skipn n ds)) by apply skipn_length.
  rewrite copy_all by (apply digit_skipn; assumption).
  unfold text. rewrite skipn_map. reflexivity.
Qed.

Lemma when_signed : forall g l, when g [minus] ++ l = signed g l.
Proof. destruct g; reflexivity. Qed.

(** ** Number::toString *)

Lemma layout_ok : forall g ds nv, digit_list 10 ds -> ds <> [] -> -999 < nv <= 1000 ->
  layout g ds nv = Some (signed g (string_layout ds nv)).
Proof.
  intros g ds nv F N R. unfold layout, string_layout, len.
  assert (L1 : (1 <= length ds)%nat) by (destruct ds; [congruence|cbn; lia]).
  set (kv := Z.of_nat (length ds)).
  destruct ((kv <=? nv) && (nv <=? 21)) eqn:C1.
  - rewrite copy_all by assumption. cbn [option_map]. rewrite when_signed. reflexivity.
  - destruct ((0 <? nv) && (nv <=? 21)) eqn:C2.
    + apply andb_prop in C2. destruct C2 as [C2 C3]. apply Z.ltb_lt in C2. rewrite C3, andb_true_r in C1.
      apply Z.leb_gt in C1.
      rewrite copy_text by (try assumption; lia).
      replace (Z.to_nat (kv - nv)) with (length ds - Z.to_nat nv)%nat by lia.
      rewrite copy_rest by (try assumption; lia). cbn [option_map]. rewrite when_signed. reflexivity.
    + destruct ((-6 <? nv) && (nv <=? 0)) eqn:C3.
      * rewrite copy_all by assumption. cbn [option_map]. rewrite when_signed.
        unfold zeros_from, zeros. rewrite Z.sub_0_r. reflexivity.
      * rewrite copy_text by assumption. rewrite exponent_ok by lia.
        destruct (Z.eqb_spec kv 1) as [E|E].
        -- cbn [option_map]. rewrite when_signed.
           rewrite firstn_all2 by (rewrite text_length; lia). reflexivity.
        -- replace (Z.to_nat (kv - 1)) with (length ds - 1)%nat by lia.
           rewrite copy_rest by assumption. cbn [option_map]. rewrite when_signed. reflexivity.
Qed.

(** ** toFixed *)

Lemma app_firstn : forall (a b : list Z), firstn (length a) (a ++ b) = a.
Proof. intros. rewrite firstn_app, firstn_all, Nat.sub_diag. cbn. apply app_nil_r. Qed.
Lemma app_skipn : forall (a b : list Z), skipn (length a) (a ++ b) = b.
Proof. intros. rewrite skipn_app, skipn_all, Nat.sub_diag. reflexivity. Qed.

Lemma take_app : forall n a b, 0 <= n -> Z.of_nat (length a) = n -> take n (a ++ b) = a.
Proof. intros n a b H E. unfold take. replace (Z.to_nat n) with (length a) by lia. apply app_firstn. Qed.
Lemma drop_app : forall n a b, 0 <= n -> Z.of_nat (length a) = n -> drop n (a ++ b) = b.
Proof. intros n a b H E. unfold drop. replace (Z.to_nat n) with (length a) by lia. apply app_skipn. Qed.

(** A text of integer part and f digits is the layout of its digits. *)
Lemma fixed_text_split : forall N f a b, 0 < f -> Z.of_nat (length b) = f ->
  a <> [] -> (decimal N = a ++ b \/
   (len (decimal N) <= f /\ zeros (f + 1 - len (decimal N)) ++ decimal N = a ++ b)) ->
  fixed_text N f = a ++ 46 :: b.
Proof.
  intros N f a b Hf Lb Na H. unfold fixed_text.
  destruct (Z.eqb_spec f 0); [lia|].
  set (t := if len (decimal N) <=? f then zeros (f + 1 - len (decimal N)) ++ decimal N else decimal N).
  assert (T : t = a ++ b).
  { subst t. destruct H as [H|[H1 H2]].
    - rewrite H. unfold len. rewrite app_length.
      destruct (Z.leb_spec (Z.of_nat (length a + length b)) f); [|reflexivity].
      destruct a; [congruence|]. cbn [length] in *. lia.
    - destruct (Z.leb_spec (len (decimal N)) f); [exact H2|lia]. }
  rewrite T. unfold len. rewrite app_length.
  rewrite take_app, drop_app by lia. reflexivity.
Qed.

Lemma repeat_split : forall n m, repeat 48 (n + m) = repeat 48 n ++ repeat 48 m.
Proof. intros; apply repeat_app. Qed.

Lemma fixed_body_ok : forall ds nv f, digit_list 10 ds -> ds <> [] -> hd 0 ds <> 0 ->
  0 <= f -> zlen ds <= nv + f ->
  fixed_body ds nv f = Some (fixed_text (value 10 ds * 10 ^ (nv + f - zlen ds)) f).
Proof.
  intros ds nv f F N H Hf Hl. unfold fixed_body. fold (zlen ds).
  assert (L1 : 1 <= zlen ds) by (unfold zlen; destruct ds; [congruence|cbn; lia]).
  pose proof (decimal_zeros ds (Z.to_nat (nv + f - zlen ds)) F N H) as DZ.
  rewrite Z2Nat.id in DZ by lia.
  set (V := value 10 ds * 10 ^ (nv + f - zlen ds)) in *. clearbody V.
  assert (LT : Z.of_nat (length (text ds)) = zlen ds) by (rewrite text_length; reflexivity).
  destruct (Z.leb_spec (zlen ds) nv) as [C|C].
  - destruct (Z.eqb_spec (zlen ds) 0); [lia|]. rewrite copy_all by assumption. f_equal.
    unfold zeros_from. rewrite Z.sub_0_r.
    destruct (Z.ltb_spec 0 f) as [P|P].
    + cbn [when]. rewrite (fixed_text_split V f (text ds ++ repeat 48 (Z.to_nat (nv - zlen ds))) (repeat 48 (Z.to_nat f))).
      * rewrite <- app_assoc. reflexivity.
      * lia.
      * rewrite repeat_length. lia.
      * intros X. apply app_eq_nil in X. destruct X as [X _]. destruct ds; [congruence|discriminate].
      * left. rewrite DZ. rewrite <- app_assoc. f_equal. rewrite <- repeat_split. f_equal. lia.
    + assert (f = 0) by lia. subst f. unfold fixed_text. cbn [Z.eqb when app repeat Z.to_nat].
      rewrite DZ. f_equal. rewrite app_nil_r. f_equal. lia.
  - destruct (Z.ltb_spec 0 nv) as [C2|C2].
    + rewrite copy_text by (try assumption; unfold zlen in *; lia).
      destruct (Z.ltb_spec 0 f) as [P|P]; [|lia].
      rewrite Z.min_l by lia.
      replace (Z.to_nat (zlen ds - nv)) with (length ds - Z.to_nat nv)%nat by (unfold zlen in *; lia).
      rewrite copy_rest by (try assumption; unfold zlen in *; lia). f_equal.
      unfold zeros_from. symmetry.
      rewrite (fixed_text_split V f (firstn (Z.to_nat nv) (text ds))
                (skipn (Z.to_nat nv) (text ds) ++ repeat 48 (Z.to_nat (f - (zlen ds - nv))))).
      * reflexivity.
      * lia.
      * rewrite app_length, skipn_length, repeat_length, text_length. unfold zlen in *. lia.
      * intros X. apply (f_equal (@length Z)) in X. rewrite firstn_length, text_length in X. cbn in X.
        unfold zlen in *. lia.
      * left. rewrite DZ. rewrite app_assoc, firstn_skipn. f_equal. f_equal. lia.
    + destruct (Z.ltb_spec 0 f) as [P|P]; [|lia].
      rewrite (Z.min_l (- nv) f) by lia. rewrite (Z.min_l (zlen ds)) by lia.
      replace (Z.to_nat (zlen ds)) with (length ds) by (unfold zlen; lia).
      rewrite copy_all by assumption. f_equal. unfold zeros_from. rewrite Z.sub_0_r. symmetry.
      rewrite (fixed_text_split V f [48]
                (repeat 48 (Z.to_nat (- nv)) ++ text ds ++ repeat 48 (Z.to_nat (f - (- nv + zlen ds))))).
      * reflexivity.
      * lia.
      * rewrite !app_length, !repeat_length. lia.
      * discriminate.
      * right. rewrite DZ. unfold len. rewrite app_length, repeat_length.
        split; [lia|]. unfold zeros.
        replace (Z.to_nat (f + 1 - Z.of_nat (length (text ds) + Z.to_nat (nv + f - zlen ds))))
          with (1 + Z.to_nat (- nv))%nat by lia.
        rewrite repeat_split, <- app_assoc. cbn [repeat app]. f_equal. f_equal. f_equal. f_equal. lia.
Qed.

Lemma fixed_body_none : forall f, 0 <= f -> fixed_body [] (- f) f = Some (fixed_text 0 f).
Proof.
  intros f Hf. unfold fixed_body. cbn [length Z.of_nat].
  destruct (Z.leb_spec 0 (- f)) as [C|C].
  - assert (f = 0) by lia. subst f. reflexivity.
  - destruct (Z.ltb_spec 0 (- f)); [lia|]. destruct (Z.ltb_spec 0 f); [|lia].
    rewrite Z.opp_involutive, Z.min_id. replace (f - f) with 0 by ring. cbn [Z.min Z.compare Z.to_nat copy].
    f_equal. symmetry.
    rewrite (fixed_text_split 0 f [48] (repeat 48 (Z.to_nat f))).
    + unfold zeros_from. rewrite Z.sub_0_r. replace (f - (f + 0)) with 0 by ring. cbn [Z.to_nat repeat app].
      rewrite app_nil_r. reflexivity.
    + lia.
    + rewrite repeat_length. lia.
    + discriminate.
    + right. change (decimal 0) with [48]. change (len [48]) with 1. split; [lia|].
      unfold zeros. replace (f + 1 - 1) with f by ring.
      change [48] with (repeat 48 1). rewrite <- !repeat_split. f_equal. lia.
Qed.

Lemma fixed_body_zero : forall f, 0 <= f -> fixed_body [0] 1 f = Some (fixed_text 0 f).
Proof.
  intros f Hf. unfold fixed_body. cbn [length]. change (Z.of_nat 1) with 1.
  change (1 <=? 1) with true. change (1 =? 0) with false. cbn [copy].
  unfold zeros_from. replace (1 - 1) with 0 by ring. rewrite Z.sub_0_r. cbn [Z.to_nat repeat app].
  f_equal. destruct (Z.ltb_spec 0 f) as [P|P].
  - cbn [when app]. symmetry. rewrite (fixed_text_split 0 f [48] (repeat 48 (Z.to_nat f))).
    + reflexivity.
    + lia.
    + rewrite repeat_length. lia.
    + discriminate.
    + right. change (decimal 0) with [48]. change (len [48]) with 1. split; [lia|].
      unfold zeros. replace (f + 1 - 1) with f by ring.
      change [48] with (repeat 48 1). rewrite <- !repeat_split. f_equal. lia.
  - assert (f = 0) by lia. subst f. reflexivity.
Qed.

(** ** x * 10^f in both scales *)

Lemma scaled_s_pos : forall e f, 0 < scaled_s e f.
Proof. intros; apply Z.mul_pos_pos; [apply pow2_pos; lia|apply pow10_pos; lia]. Qed.

Lemma scales : forall m e k n, 1 <= n ->
  (b_of m e k * 10 ^ (n - 1)) * scaled_s e (n - 1 - k) = scaled_b m e (n - 1 - k) * s_of e k.
Proof.
  intros m e k n H. unfold b_of, s_of, scaled_b, scaled_s, bx, sx.
  assert (P : 10 ^ Z.max (- k) 0 * 10 ^ (n - 1) * 10 ^ Z.max (- (n - 1 - k)) 0 =
              10 ^ Z.max (n - 1 - k) 0 * 10 ^ Z.max k 0).
  { rewrite <- !Z.pow_add_r by lia. f_equal. lia. }
  transitivity (m * 2 ^ Z.max e 0 * 2 ^ Z.max (- e) 0 *
    (10 ^ Z.max (- k) 0 * 10 ^ (n - 1) * 10 ^ Z.max (- (n - 1 - k)) 0)); [ring|].
  rewrite P. ring.
Qed.

Lemma rounded_at : forall m e k n, 1 <= n ->
  round_even (b_of m e k * 10 ^ (n - 1)) (s_of e k) =
  round_even (scaled_b m e (n - 1 - k)) (scaled_s e (n - 1 - k)).
Proof.
  intros. apply (cross _ round_even round_even_scale).
  - apply s_pos.
  - apply scaled_s_pos.
  - apply scales. assumption.
Qed.

(** n digits of x. *)
Lemma rounded_digits : forall m e n, 0 < m -> 1 <= n ->
  digits_of (kx m e) n (round_even (scaled_b m e (n - 1 - kx m e)) (scaled_s e (n - 1 - kx m e)))
    (fixed_digits (Z.to_nat n) (b_of m e (kx m e)) (s_of e (kx m e)) (kx m e)).
Proof.
  intros m e n M H.
  pose proof (fixed_digits_ok (Z.to_nat n) (b_of m e (kx m e)) (s_of e (kx m e)) (kx m e)
                ltac:(lia) (s_pos _ _) (scale_ok m e M)) as F.
  rewrite Z2Nat.id in F by lia. rewrite rounded_at in F by lia. exact F.
Qed.

Lemma lead_hd : forall rs, lead rs -> rev rs <> [] /\ hd 0 (rev rs) <> 0.
Proof.
  intros rs [H1 H2]. destruct rs as [|d t] using rev_ind; [congruence|].
  rewrite rev_app_distr. rewrite last_last in H2. split; [discriminate|exact H2].
Qed.

Lemma zlen_rev : forall l, zlen (rev l) = zlen l.
Proof. intros; unfold zlen; rewrite rev_length; reflexivity. Qed.

Lemma to_fixed_fin : forall g m e f, valid (Fin g m e) -> 0 <= f <= 100 -> huge (Fin g m e) = false ->
  to_fixed (Fin g m e) (Int f) =
  Text (signed g (fixed_text (round_even (scaled_b m e f) (scaled_s e f)) f)).
Proof.
  intros g m e f V Hf Hh. pose proof (valid_m _ _ _ V) as M.
  unfold to_fixed. destruct (Z.ltb_spec f 0); [lia|]. destruct (Z.ltb_spec 100 f); [lia|].
  rewrite Hh. cbn [finite negb orb dtoa_num sign_of].
  unfold dtoa. fold (kx m e).
  pose proof (scale_ok m e ltac:(lia)) as [S1 S2].
  set (n := f + kx m e + 1).
  destruct (Z.ltb_spec n 0) as [C|C].
  - rewrite fixed_body_none by lia. cbn [option_map of_text]. rewrite when_signed. do 3 f_equal.
    symmetry.
    assert (P1 : 0 <= scaled_b m e f).
    { apply Z.mul_nonneg_nonneg; [apply Z.mul_nonneg_nonneg; [lia|apply Z.lt_le_incl, pow2_pos; lia]|apply Z.lt_le_incl, pow10_pos; lia]. }
    assert (P2 : 2 * scaled_b m e f < scaled_s e f).
    { unfold scaled_b, scaled_s. unfold b_of, s_of, bx, sx in S2.
      rewrite (Z.max_r (kx m e) 0), (Z.max_l (- kx m e) 0) in S2 by lia.
      rewrite (Z.max_l f 0), (Z.max_r (- f) 0) by lia. change (10 ^ 0) with 1 in *.
      replace (- kx m e) with (f + 1 + (- kx m e - f - 1)) in S2 by ring.
      rewrite !Z.pow_add_r in S2 by lia. change (10 ^ 1) with 10 in S2.
      assert (1 <= - kx m e - f - 1) by lia.
      assert (10 ^ 1 <= 10 ^ (- kx m e - f - 1)) by (apply Z.pow_le_mono_r; lia).
      change (10 ^ 1) with 10 in *.
      set (w := 10 ^ (- kx m e - f - 1)) in *. clearbody w.
      unfold scaled_b in P1. rewrite (Z.max_l f 0) in P1 by lia.
      set (y := m * 2 ^ Z.max e 0) in *. set (z := 2 ^ Z.max (- e) 0) in *. set (v := 10 ^ f) in *.
      clearbody y z v.
      assert (y * (v * 10 * 10) <= y * (v * 10 * w)) by nia. lia. }
    rewrite (round_even_at _ 0 _ (scaled_b m e f)); try lia.
    destruct (Z.ltb_spec (scaled_s e f) (2 * scaled_b m e f)); [lia|].
    rewrite andb_false_r. reflexivity.
  - destruct (Z.eqb_spec n 0) as [E0|E0].
    + assert (Kf : f = - kx m e - 1) by lia.
      (* x * 10^f is b / (10 s) *)
      assert (R : round_even (scaled_b m e f) (scaled_s e f) =
                  round_even (b_of m e (kx m e)) (10 * s_of e (kx m e))).
      { apply (cross _ round_even round_even_scale).
        - apply scaled_s_pos.
        - pose proof (s_pos e (kx m e)). lia.
        - unfold scaled_b, scaled_s, b_of, s_of, bx, sx.
          rewrite (Z.max_r (kx m e) 0), (Z.max_l (- kx m e) 0) by lia.
          rewrite (Z.max_l f 0), (Z.max_r (- f) 0) by lia. change (10 ^ 0) with 1.
          replace (- kx m e) with (f + 1) by lia. rewrite pow10_succ by lia. ring. }
      pose proof (s_pos e (kx m e)) as SP.
      rewrite R, (round_even_at _ 0 _ (b_of m e (kx m e))); try lia.
      change (Z.odd 0) with false. rewrite andb_false_r, orb_false_r.
      destruct (Z.ltb_spec (5 * s_of e (kx m e)) (b_of m e (kx m e))) as [U|U];
        destruct (Z.ltb_spec (10 * s_of e (kx m e)) (2 * b_of m e (kx m e))); try lia.
      * replace (kx m e + 2) with (1 - f) by lia.
        rewrite fixed_body_ok.
        -- cbn [option_map of_text]. rewrite when_signed. change (zlen [1]) with 1.
           replace (1 - f + f - 1) with 0 by ring. reflexivity.
        -- constructor; [lia|constructor].
        -- discriminate.
        -- discriminate.
        -- lia.
        -- change (zlen [1]) with 1. lia.
      * rewrite fixed_body_none by lia. cbn [option_map of_text]. rewrite when_signed. reflexivity.
    + pose proof (rounded_digits m e n ltac:(lia) ltac:(lia)) as D.
      destruct (fixed_digits (Z.to_nat n) (b_of m e (kx m e)) (s_of e (kx m e)) (kx m e)) as [rs k'].
      destruct D as (D1 & D2 & D3 & D4 & D5 & D6).
      cbn [fst snd]. destruct (lead_hd _ D2) as [H1 H2].
      rewrite fixed_body_ok; try assumption; try lia.
      * cbn [option_map of_text]. rewrite when_signed. do 3 f_equal.
        rewrite value_rev, zlen_rev.
        replace (n - 1 - kx m e) with f in D6 by lia. rewrite <- D6. f_equal. f_equal. lia.
      * apply Forall_rev. exact D1.
      * rewrite zlen_rev. lia.
Qed.

Lemma to_fixed_zero : forall g f, 0 <= f <= 100 ->
  to_fixed (Zero g) (Int f) = Text (signed g (fixed_text 0 f)).
Proof.
  intros g f Hf. unfold to_fixed. destruct (Z.ltb_spec f 0); [lia|]. destruct (Z.ltb_spec 100 f); [lia|].
  cbn [finite negb orb huge dtoa_num sign_of]. rewrite fixed_body_zero by lia.
  cbn [option_map of_text]. rewrite when_signed. reflexivity.
Qed.

(** ** Significant digits *)

Definition padded (ds : list Z) (p : Z) : list Z :=
  text ds ++ repeat 48 (Z.to_nat p - length ds).

Lemma rounded_le : forall m e p, 0 < m -> 1 <= p ->
  round_even (scaled_b m e (p - 1 - kx m e)) (scaled_s e (p - 1 - kx m e)) <= 10 ^ p.
Proof.
  intros m e p M Hp. rewrite <- rounded_at by lia.
  pose proof (scale_ok m e M) as [S1 S2]. pose proof (s_pos e (kx m e)) as SP.
  set (s := s_of e (kx m e)) in *. set (b := b_of m e (kx m e)) in *. clearbody s b.
  pose proof (Z.div_mod (b * 10 ^ (p - 1)) s ltac:(lia)) as E.
  pose proof (Z.mod_pos_bound (b * 10 ^ (p - 1)) s SP) as R.
  rewrite (round_even_at _ (b * 10 ^ (p - 1) / s) _ (b * 10 ^ (p - 1) mod s)) by lia.
  assert (Q1 : b * 10 ^ (p - 1) / s < 10 ^ p).
  { apply Z.div_lt_upper_bound; [lia|]. replace p with ((p - 1) + 1) at 2 by ring.
    rewrite pow10_succ by lia. pose proof (pow10_pos (p - 1) ltac:(lia)). nia. }
  destruct (_ || _); lia.
Qed.

Lemma significant_digits : forall m e p, 0 < m -> 1 <= p ->
  exists ds nv n ex,
    dtoa (Significant p) m e = Some (ds, nv) /\
    carried p (kx m e) (round_even (scaled_b m e (p - 1 - kx m e)) (scaled_s e (p - 1 - kx m e))) = (n, ex) /\
    nv = ex + 1 /\ digit_list 10 ds /\ ds <> [] /\ zlen ds <= p /\
    kx m e <= ex <= kx m e + 1 /\ padded ds p = decimal n.
Proof.
  intros m e p M Hp. unfold dtoa. fold (kx m e). rewrite Z.max_l by lia.
  pose proof (rounded_digits m e p M Hp) as D. pose proof (rounded_le m e p M Hp) as NU.
  set (N := round_even (scaled_b m e (p - 1 - kx m e)) (scaled_s e (p - 1 - kx m e))) in *.
  clearbody N.
  destruct (fixed_digits (Z.to_nat p) (b_of m e (kx m e)) (s_of e (kx m e)) (kx m e)) as [rs k'].
  destruct D as (D1 & D2 & D3 & D4 & D5 & D6). cbn [fst snd].
  destruct (lead_hd _ D2) as [H1 H2].
  pose proof (rval_bound rs D1) as RB. pose proof (lead_val rs D1 D2) as RL.
  assert (Z1 : 1 <= zlen rs).
  { destruct D2 as [D2 _]. destruct rs; [congruence|]. rewrite zlen_cons. pose proof (zlen_nonneg rs). lia. }
  exists (rev rs), (k' + 1).
  assert (PD : forall z, 0 <= z -> zlen rs + z = p ->
     padded (rev rs) p = decimal (rval rs * 10 ^ z)).
  { intros z Hz Ez. unfold padded. rewrite <- value_rev.
    replace z with (Z.of_nat (Z.to_nat z)) by lia.
    rewrite decimal_zeros by (try assumption; apply Forall_rev; assumption).
    f_equal. f_equal. rewrite rev_length. unfold zlen in Ez. lia. }
  assert (RN : rval rs * 10 ^ (p - zlen rs) < 10 ^ p).
  { replace p with (zlen rs + (p - zlen rs)) at 2 by ring. rewrite Z.pow_add_r by lia.
    pose proof (pow10_pos (p - zlen rs) ltac:(lia)). nia. }
  unfold carried.
  destruct (Z.eq_dec k' (kx m e)) as [E|E].
  - assert (ND : N = rval rs * 10 ^ (p - zlen rs)).
    { rewrite <- D6. f_equal. f_equal. lia. }
    exists N, (kx m e). split; [reflexivity|].
    split.
    { destruct (Z.eqb_spec N (10 ^ p)); [lia|reflexivity]. }
    split; [lia|]. split; [apply Forall_rev; assumption|]. split; [assumption|].
    split; [rewrite zlen_rev; lia|]. split; [lia|].
    rewrite (PD (p - zlen rs)) by lia. rewrite <- ND. reflexivity.
  - assert (E' : k' = kx m e + 1) by lia.
    (* a carry: the digits are 1 *)
    assert (ND : N = 10 * (rval rs * 10 ^ (p - zlen rs))).
    { rewrite <- D6. replace (k' - kx m e + p - zlen rs) with ((p - zlen rs) + 1) by lia.
      rewrite pow10_succ by lia. ring. }
    assert (N10 : N = 10 ^ p).
    { apply Z.le_antisymm; [exact NU|]. rewrite ND.
      replace p with ((zlen rs - 1) + (p - zlen rs) + 1) at 1 by ring.
      rewrite pow10_succ, Z.pow_add_r by lia.
      pose proof (pow10_pos (p - zlen rs) ltac:(lia)). nia. }
    exists (10 ^ (p - 1)), (kx m e + 1). split; [reflexivity|].
    split.
    { destruct (Z.eqb_spec N (10 ^ p)); [reflexivity|lia]. }
    split; [lia|]. split; [apply Forall_rev; assumption|]. split; [assumption|].
    split; [rewrite zlen_rev; lia|]. split; [lia|].
    rewrite (PD (p - zlen rs)) by lia. f_equal.
    replace p with ((p - 1) + 1) in N10 at 1 by ring. rewrite pow10_succ in N10 by lia. lia.
Qed.

Lemma padded_length : forall ds p, zlen ds <= p -> len (padded ds p) = p.
Proof.
  intros ds p H. unfold len, padded. rewrite app_length, text_length, repeat_length.
  unfold zlen in H. lia.
Qed.

Lemma copy_pad_text : forall ds p, digit_list 10 ds ->
  zlen ds <= p -> fst (copy_pad (Z.to_nat p) ds) = padded ds p.
Proof.
  intros ds p F H. rewrite copy_pad_ok. cbn [fst]. unfold zlen in H.
  rewrite firstn_all2 by lia. rewrite map_ch by assumption. reflexivity.
Qed.

(** A first part and the rest. *)
Lemma copy_pad_split : forall ds a b, digit_list 10 ds -> zlen ds <= a + b -> 0 <= a -> 0 <= b ->
  fst (copy_pad (Z.to_nat a) ds) = take a (padded ds (a + b)) /\
  fst (copy_pad (Z.to_nat b) (snd (copy_pad (Z.to_nat a) ds))) = drop a (padded ds (a + b)).
Proof.
  intros ds a b F H Ha Hb. rewrite !copy_pad_ok. cbn [fst snd].
  rewrite !map_ch by (apply digit_firstn; try apply digit_skipn; assumption).
  unfold take, drop, padded. unfold zlen in H.
  rewrite skipn_length. unfold text.
  split.
  - rewrite firstn_app, firstn_map, map_length. f_equal.
    rewrite Z2Nat.inj_add by lia.
    destruct (Nat.le_gt_cases (length ds) (Z.to_nat a)) as [L|L].
    + replace (Z.to_nat a + Z.to_nat b - length ds)%nat with ((Z.to_nat a - length ds) + Z.to_nat b)%nat by lia.
      rewrite repeat_app, firstn_app, repeat_length, Nat.sub_diag, firstn_all2 by (rewrite repeat_length; lia).
      cbn [firstn]. rewrite app_nil_r. reflexivity.
    + replace (Z.to_nat a - length ds)%nat with 0%nat by lia. reflexivity.
  - rewrite skipn_app, map_length.
    rewrite firstn_all2 by (rewrite skipn_length; lia). rewrite skipn_map. f_equal.
    rewrite Z2Nat.inj_add by lia.
    destruct (Nat.le_gt_cases (length ds) (Z.to_nat a)) as [L|L].
    + replace (Z.to_nat a + Z.to_nat b - length ds)%nat with ((Z.to_nat a - length ds) + Z.to_nat b)%nat by lia.
      rewrite repeat_app, skipn_app, repeat_length, Nat.sub_diag, skipn_all2 by (rewrite repeat_length; lia).
      cbn [skipn app]. f_equal. lia.
    + replace (Z.to_nat a - length ds)%nat with 0%nat by lia. cbn [skipn]. f_equal. lia.
Qed.

Lemma copy_one : forall ds p, digit_list 10 ds -> ds <> [] -> 1 <= p -> zlen ds <= p ->
  exists sc, copy 1 ds = Some (take 1 (padded ds p), sc) /\
             fst (copy_pad (Z.to_nat (p - 1)) sc) = drop 1 (padded ds p).
Proof.
  intros ds p F N Hp Hl. destruct (copy_pad_split ds 1 (p - 1) F) as [A B]; try lia.
  replace (1 + (p - 1)) with p in * by ring.
  destruct ds as [|d t]; [congruence|].
  exists t. split.
  - change (Z.to_nat 1) with 1%nat in *. cbn [copy_pad fst] in A. cbn [copy]. rewrite <- A. reflexivity.
  - rewrite <- B. change (Z.to_nat 1) with 1%nat. reflexivity.
Qed.

Lemma take_one : forall l, len l = 1 -> take 1 l = l.
Proof. intros l H. unfold take, len in *. apply firstn_all2. lia. Qed.

(** The body of toExponential. *)
Definition exponential_body (ds : list Z) (nv frac : Z) : option (list Z) :=
  match copy 1 ds with
  | None => None
  | Some (o, sc) =>
      Some (o ++ when (0 <? frac) (dot :: fst (copy_pad (Z.to_nat frac) sc)) ++ exponent nv)
  end.

Lemma exponential_body_ok : forall ds nv f, digit_list 10 ds -> ds <> [] -> 0 <= f ->
  zlen ds <= f + 1 -> -999 < nv <= 1000 ->
  exponential_body ds nv f = Some (exponential_text (padded ds (f + 1)) (nv - 1) f).
Proof.
  intros ds nv f F N Hf Hl R. unfold exponential_body, exponential_text.
  destruct (copy_one ds (f + 1) F N ltac:(lia) Hl) as (sc & -> & E).
  replace (f + 1 - 1) with f in E by ring.
  rewrite exponent_ok by assumption. f_equal.
  destruct (Z.ltb_spec 0 f) as [P|P].
  - destruct (Z.eqb_spec f 0); [lia|]. cbn [when]. rewrite E.
    rewrite <- app_assoc. reflexivity.
  - assert (f = 0) by lia. subst f. cbn [when app Z.eqb].
    rewrite take_one by (apply padded_length; lia). reflexivity.
Qed.

Lemma precision_body_ok : forall ds nv p, digit_list 10 ds -> ds <> [] -> 1 <= p ->
  zlen ds <= p -> -999 < nv <= 1000 ->
  precision_body ds nv p = Some (precision_text (padded ds p) (nv - 1) p).
Proof.
  intros ds nv p F N Hp Hl R. unfold precision_body, precision_text.
  destruct ((nv - 1 <? -6) || (p <=? nv - 1)) eqn:C1.
  - destruct (copy_one ds p F N Hp Hl) as (sc & -> & E). rewrite exponent_ok by assumption. f_equal.
    destruct (Z.eqb_spec p 1) as [E1|E1]; cbn [negb when].
    + subst p. cbn [app]. rewrite take_one by (apply padded_length; lia). reflexivity.
    + rewrite E, <- app_assoc. reflexivity.
  - apply orb_false_iff in C1. destruct C1 as [C1 C2]. apply Z.ltb_ge in C1. apply Z.leb_gt in C2.
    destruct (Z.eqb_spec (nv - 1) (p - 1)) as [E|E].
    + rewrite copy_pad_text by assumption. reflexivity.
    + destruct (Z.leb_spec 0 (nv - 1)) as [P|P].
      * destruct (copy_pad_split ds (nv - 1 + 1) (p - (nv - 1) - 1) F) as [A B]; try lia.
        replace (nv - 1 + 1 + (p - (nv - 1) - 1)) with p in * by ring.
        destruct (copy_pad (Z.to_nat (nv - 1 + 1)) ds) as [o sc]. cbn [fst snd] in *.
        rewrite A, B. reflexivity.
      * rewrite copy_pad_text by assumption. unfold zeros_from, zeros. rewrite Z.sub_0_r. reflexivity.
Qed.

Lemma to_exponential_body : forall x fv, finite x = true ->
  to_exponential x fv =
  let fn := match fv with Some a => a | None => Int 0 end in
  if arg_lt fn 0 || arg_gt fn 100 then RangeError
  else match dtoa_num (match fv with Some _ => Significant (arg_int fn + 1) | None => Shortest end) x with
       | None => Undefined
       | Some (ds, nv) =>
           of_text (option_map (app (when (sign_of x && nonzero x) [minus]))
             (exponential_body ds nv (match fv with Some _ => arg_int fn | None => Z.of_nat (length ds) - 1 end)))
       end.
Proof.
  intros x fv H. unfold to_exponential, exponential_body. rewrite H. cbn [negb]. cbv zeta.
  destruct (arg_lt _ 0 || arg_gt _ 100); [reflexivity|].
  destruct (dtoa_num _ x) as [[ds nv]|]; [|reflexivity].
  destruct (copy 1 ds) as [[o sc]|]; reflexivity.
Qed.

(** The text of n and e chosen for p digits of x. *)
Lemma to_exponential_fin : forall g m e f, valid (Fin g m e) -> 0 <= f <= 100 ->
  exists n ex,
    carried (f + 1) (kx m e) (round_even (scaled_b m e (f - kx m e)) (scaled_s e (f - kx m e))) = (n, ex) /\
    to_exponential (Fin g m e) (Some (Int f)) = Text (signed g (exponential_text (decimal n) ex f)).
Proof.
  intros g m e f V Hf. pose proof (valid_m _ _ _ V) as M. pose proof (k_range _ _ _ V) as K.
  destruct (significant_digits m e (f + 1) ltac:(lia) ltac:(lia)) as
    (ds & nv & n & ex & D1 & D2 & D3 & D4 & D5 & D6 & D7 & D8).
  exists n, ex. replace (f + 1 - 1 - kx m e) with (f - kx m e) in D2 by ring.
  split; [exact D2|]. rewrite to_exponential_body by reflexivity.
  cbn [arg_lt arg_gt arg_int dtoa_num sign_of nonzero].
  destruct (Z.ltb_spec f 0); [lia|]. destruct (Z.ltb_spec 100 f); [lia|]. cbn [orb].
  rewrite D1. rewrite exponential_body_ok by (try assumption; lia).
  cbn [option_map of_text]. rewrite andb_true_r, when_signed, D8. do 3 f_equal. lia.
Qed.

Lemma to_precision_fin : forall g m e p, valid (Fin g m e) -> 1 <= p <= 100 ->
  exists n ex,
    carried p (kx m e) (round_even (scaled_b m e (p - 1 - kx m e)) (scaled_s e (p - 1 - kx m e))) = (n, ex) /\
    to_precision (Fin g m e) (Some (Int p)) = Text (signed g (precision_text (decimal n) ex p)).
Proof.
  intros g m e p V Hp. pose proof (valid_m _ _ _ V) as M. pose proof (k_range _ _ _ V) as K.
  destruct (significant_digits m e p ltac:(lia) ltac:(lia)) as
    (ds & nv & n & ex & D1 & D2 & D3 & D4 & D5 & D6 & D7 & D8).
  exists n, ex. split; [exact D2|].
  unfold to_precision. cbn [finite negb arg_lt arg_gt arg_int dtoa_num sign_of nonzero].
  destruct (Z.ltb_spec p 1); [lia|]. destruct (Z.ltb_spec 100 p); [lia|]. cbn [orb].
  rewrite D1. rewrite precision_body_ok by (try assumption; lia).
  cbn [option_map of_text]. rewrite andb_true_r, when_signed, D8. do 3 f_equal. lia.
Qed.

Lemma padded_zero : forall p, 1 <= p -> padded [0] p = zeros p.
Proof.
  intros p H. unfold padded, zeros. change (text [0]) with (repeat 48 1). rewrite <- repeat_split.
  f_equal. cbn [length]. lia.
Qed.

Lemma to_exponential_zero : forall g f, 0 <= f <= 100 ->
  to_exponential (Zero g) (Some (Int f)) = Text (exponential_text (zeros (f + 1)) 0 f).
Proof.
  intros g f Hf. rewrite to_exponential_body by reflexivity.
  cbn [arg_lt arg_gt arg_int dtoa_num sign_of nonzero].
  destruct (Z.ltb_spec f 0); [lia|]. destruct (Z.ltb_spec 100 f); [lia|]. cbn [orb].
  rewrite exponential_body_ok.
  - cbn [option_map of_text]. rewrite andb_false_r, when_signed, padded_zero by lia. reflexivity.
  - constructor; [lia|constructor].
  - discriminate.
  - lia.
  - change (zlen [0]) with 1. lia.
  - lia.
Qed.

Lemma to_precision_zero : forall g p, 1 <= p <= 100 ->
  to_precision (Zero g) (Some (Int p)) = Text (precision_text (zeros p) 0 p).
Proof.
  intros g p Hp. unfold to_precision. cbn [finite negb arg_lt arg_gt arg_int dtoa_num sign_of nonzero].
  destruct (Z.ltb_spec p 1); [lia|]. destruct (Z.ltb_spec 100 p); [lia|]. cbn [orb].
  rewrite precision_body_ok.
  - cbn [option_map of_text]. rewrite andb_false_r, when_signed, padded_zero by lia. reflexivity.
  - constructor; [lia|constructor].
  - discriminate.
  - lia.
  - change (zlen [0]) with 1. lia.
  - lia.
Qed.

(** toExponential without an argument: all digits of the shortest decimal. *)
Lemma to_exponential_all : forall g m e ds nv, valid (Fin g m e) ->
  dtoa Shortest m e = Some (ds, nv) ->
  to_exponential (Fin g m e) None =
  Text (signed g (exponential_text (text ds) (nv - 1) (len ds - 1))).
Proof.
  intros g m e ds nv V E. destruct (shortest_actual _ _ _ V) as (ds' & nv' & E' & T & L & R & _).
  rewrite E in E'. injection E' as <- <-. destruct T as (F & N & _).
  rewrite to_exponential_body by reflexivity.
  cbn [arg_lt arg_gt arg_int dtoa_num sign_of nonzero]. rewrite E.
  change ((0 <? 0) || (100 <? 0)) with false. cbv iota beta.
  assert (L1 : (1 <= length ds)%nat) by (destruct ds; [congruence|cbn; lia]).
  rewrite exponential_body_ok; try assumption; try lia.
  - cbn [option_map of_text]. rewrite andb_true_r, when_signed. unfold padded, len.
    replace (Z.to_nat (Z.of_nat (length ds) - 1 + 1) - length ds)%nat with 0%nat by lia.
    cbn [repeat]. rewrite app_nil_r. reflexivity.
  - unfold zlen. lia.
Qed.

(** ** The texts of numbers *)

Lemma array_index_value : forall g m e n, 0 < m -> array_index (Fin g m e) = Some n ->
  g = false /\ 0 <= n < 0xffffffff /\ bx m e = n * sx e.
Proof.
  intros g m e n M H. unfold array_index in H. destruct g; [discriminate|].
  destruct ((bx m e mod sx e =? 0) && (bx m e / sx e <? 4294967295)) eqn:C; [|discriminate].
  injection H as <-. apply andb_prop in C. destruct C as [C1 C2].
  apply Z.eqb_eq in C1. apply Z.ltb_lt in C2.
  pose proof (sx_pos e) as SP. pose proof (bx_pos m e M) as BP.
  split; [reflexivity|]. split; [split; [apply Z.div_pos; lia|exact C2]|].
  pose proof (Z.div_mod (bx m e) (sx e) ltac:(lia)). lia.
Qed.

Lemma integral_value : forall m e n, bx m e = n * sx e -> (bin_q m e == inject_Z n)%Q.
Proof.
  intros m e n H. unfold bx, sx in H. unfold bin_q.
  assert (E : (inject_Z (m * 2 ^ Z.max e 0) == inject_Z (n * 2 ^ Z.max (- e) 0))%Q) by (rewrite H; reflexivity).
  rewrite !inject_Z_mult, !inj2 in E by lia.
  assert (P : (~ (2 # 1) ^ Z.max (- e) 0 == 0)%Q) by (apply Qpower_not_0; discriminate).
  apply (Qmult_inj_r _ _ _ P). rewrite <- E, <- Qmult_assoc, <- (Qpower_plus _ _ _ two_nz).
  replace (e + Z.max (- e) 0) with (Z.max e 0) by lia. reflexivity.
Qed.

Lemma string_index : forall g m e n, valid (Fin g m e) -> array_index (Fin g m e) = Some n ->
  number_to_string (Fin g m e) = Some (decimal n) /\ (bin_q m e == inject_Z n)%Q.
Proof.
  intros g m e n V H. pose proof (valid_m _ _ _ V) as M.
  destruct (array_index_value g m e n ltac:(lia) H) as (G & R & E).
  split; [|apply integral_value; exact E].
  unfold number_to_string. rewrite H. rewrite index_text_ok; [reflexivity|].
  change (10 ^ 10) with 10000000000. lia.
Qed.

Lemma string_fin : forall g m e ds nv, valid (Fin g m e) -> array_index (Fin g m e) = None ->
  dtoa Shortest m e = Some (ds, nv) ->
  number_to_string (Fin g m e) = Some (signed g (string_layout ds nv)).
Proof.
  intros g m e ds nv V H E. destruct (shortest_actual _ _ _ V) as (ds' & nv' & E' & T & L & R & _).
  rewrite E in E'. injection E' as <- <-. destruct T as (F & N & _).
  unfold number_to_string. rewrite H. cbn [dtoa_num sign_of]. rewrite E.
  apply layout_ok; try assumption; lia.
Qed.

(** ** Lengths: the buffers are large enough *)

Lemma decimal_length : forall k n, 0 <= n < 10 ^ Z.of_nat k -> (1 <= k)%nat -> (length (decimal n) <= k)%nat.
Proof.
  induction k as [|k IH]; intros n H K; [lia|].
  destruct (Z.lt_ge_cases n 10).
  - rewrite decimal_small by lia. cbn. lia.
  - rewrite decimal_step by lia. rewrite app_length. cbn [length].
    destruct k as [|k]; [change (10 ^ Z.of_nat 1) with 10 in H; lia|].
    specialize (IH (n / 10)). rewrite Nat2Z.inj_succ, Z.pow_succ_r in H by lia.
    enough ((length (decimal (n / 10)) <= S k)%nat) by lia. apply IH; [|lia].
    split; [apply Z.div_pos; lia|apply Z.div_lt_upper_bound; lia].
Qed.

Lemma decimal_length_small : forall n, 0 <= n < 1000 -> (length (decimal n) <= 3)%nat.
Proof.
  intros n H. destruct (Z.lt_ge_cases n 10).
  - rewrite decimal_small by lia. cbn. lia.
  - rewrite decimal_step by lia. rewrite app_length. cbn [length].
    destruct (Z.lt_ge_cases n 100).
    + rewrite decimal_small by (split; [apply Z.div_pos; lia|apply Z.div_lt_upper_bound; lia]). cbn. lia.
    + rewrite decimal_step by (apply Z.div_le_lower_bound; lia). rewrite app_length, Z.div_div by lia.
      rewrite decimal_small by (split; [apply Z.div_pos; lia|apply Z.div_lt_upper_bound; lia]). cbn. lia.
Qed.

Lemma exponent_length : forall e, -1000 < e < 1000 -> (length (exponent_text e) <= 5)%nat.
Proof.
  intros e H. unfold exponent_text. cbn [length].
  pose proof (decimal_length_small (Z.abs e) ltac:(lia)). lia.
Qed.

Lemma signed_length : forall g l, (length (signed g l) <= 1 + length l)%nat.
Proof. destruct g; cbn; lia. Qed.

Lemma string_length : forall ds nv, (length ds <= 17)%nat -> -900 < nv < 1000 ->
  (length (string_layout ds nv) <= 25)%nat.
Proof.
  intros ds nv L R. unfold string_layout, zeros, take, drop, len. cbv zeta.
  destruct ((Z.of_nat (length ds) <=? nv) && (nv <=? 21)) eqn:C1.
  { apply andb_prop in C1. destruct C1 as [C1 C2]. apply Z.leb_le in C1, C2.
    rewrite app_length, text_length, repeat_length. lia. }
  destruct ((0 <? nv) && (nv <=? 21)) eqn:C2.
  { rewrite app_length. cbn [length]. rewrite firstn_length, skipn_length, text_length. lia. }
  destruct ((-6 <? nv) && (nv <=? 0)) eqn:C3.
  { apply andb_prop in C3. destruct C3 as [C3 C4]. apply Z.ltb_lt in C3.
    cbn [length]. rewrite app_length, repeat_length, text_length. lia. }
  pose proof (exponent_length (nv - 1) ltac:(lia)) as EL.
  destruct (Z.of_nat (length ds) =? 1).
  - rewrite app_length, text_length. lia.
  - rewrite app_length. cbn [length]. rewrite app_length, firstn_length, skipn_length, text_length. lia.
Qed.

Lemma fixed_length : forall n f, 0 <= n < 10 ^ 130 -> 0 <= f <= 100 ->
  (length (fixed_text n f) <= 132)%nat.
Proof.
  intros n f Hn Hf. unfold fixed_text, zeros, take, drop, len. cbv zeta.
  assert (L : (length (decimal n) <= 130)%nat) by (apply decimal_length; lia).
  destruct (f =? 0); [lia|].
  destruct (Z.of_nat (length (decimal n)) <=? f); rewrite app_length; cbn [length];
    rewrite ?firstn_length, ?skipn_length, ?app_length, ?repeat_length; lia.
Qed.
