From Coq Require Import ZArith List Bool Lia.
Import ListNotations.
From Verif Require Import StrModel UriModel UriSpec.
Local Open Scope Z_scope.
Ltac Zify.zify_post_hook ::= Z.div_mod_to_equations.

(** ** Bit operations on bytes *)
Lemma land_low : forall k x, 0 <= k -> Z.land x (Z.ones k) = x mod 2 ^ k.
Proof. intros. apply Z.land_ones. assumption. Qed.

Lemma lor_add : forall k x y, 0 <= k -> 0 <= y < 2 ^ k -> Z.lor (Z.shiftl x k) y = x * 2 ^ k + y.
Proof.
  intros k x y Hk H. rewrite <- Z.lxor_lor, <- Z.add_nocarry_lxor; [rewrite Z.shiftl_mul_pow2 by lia; reflexivity| |];
    apply Z.bits_inj'; intros i Hi; rewrite Z.land_spec, Z.bits_0, Z.shiftl_spec by lia;
    (destruct (Z.ltb_spec i k);
     [rewrite (Z.testbit_neg_r x (i - k)) by lia; reflexivity
     | rewrite <- (Z.mod_small y (2 ^ k)) by lia; rewrite Z.mod_pow2_bits_high by lia; apply andb_false_r]).
Qed.

(** checking a property of all bytes *)
Fixpoint up_to (n : nat) (f : Z -> bool) : bool :=
  match n with O => true | S n' => f (Z.of_nat n') && up_to n' f end.
Lemma up_to_spec : forall n f, up_to n f = true -> forall x, 0 <= x < Z.of_nat n -> f x = true.
Proof.
  induction n as [|n IH]; intros f H x Hx; [lia|]. cbn in H. apply andb_true_iff in H. destruct H as [H1 H2].
  destruct (Z.eq_dec x (Z.of_nat n)) as [-> | N]; [exact H1 | apply IH; [exact H2 | lia]].
Qed.

(** the lead byte, arithmetically *)
Definition lead_arith (uc : Z) : sres (nat * Z) :=
  if uc <? 0x80 then SOk (0%nat, uc)
  else if uc <? 0xc0 then SThrow
  else if uc <? 0xe0 then SOk (1%nat, uc - 0xc0)
  else if uc <? 0xf0 then SOk (2%nat, uc - 0xe0)
  else if uc <? 0xf8 then SOk (3%nat, uc - 0xf0)
  else SThrow.
Definition same_lead (a b : sres (nat * Z)) : bool :=
  match a, b with
  | SOk (n, x), SOk (m, y) => Nat.eqb n m && (x =? y)
  | SThrow, SThrow => true
  | _, _ => false
  end.
Lemma lead_spec : forall b, 0 <= b < 256 -> lead b = lead_arith b.
Proof.
  intros b H.
  assert (C : up_to 256 (fun b => same_lead (lead b) (lead_arith b)) = true) by (vm_compute; reflexivity).
  pose proof (up_to_spec 256 _ C b H) as S. cbv beta in S. unfold same_lead in S.
  destruct (lead b) as [[n x]| |], (lead_arith b) as [[m y]| |]; try discriminate S; try reflexivity.
  apply andb_true_iff in S. destruct S as [S1 S2]. apply Nat.eqb_eq in S1. apply Z.eqb_eq in S2. subst. reflexivity.
Qed.

Lemma cont_byte : forall v, 0 <= v < 256 -> (Z.land v 0xc0 =? 0x80) = ((0x80 <=? v) && (v <=? 0xbf)).
Proof.
  intros v H.
  assert (C : up_to 256 (fun v => Bool.eqb (Z.land v 0xc0 =? 0x80) ((0x80 <=? v) && (v <=? 0xbf))) = true) by (vm_compute; reflexivity).
  apply eqb_prop. exact (up_to_spec 256 _ C v H).
Qed.

(** ** Characters *)
Lemma xdigit_spec : forall c, is_xdigit c = true <-> exists v, hex_digit c v.
Proof.
  intro c. unfold is_xdigit, hex_digit. rewrite !orb_true_iff, !andb_true_iff, !Z.leb_le. split.
  - intros [[H | H] | H]; eexists; [left | right; right | right; left]; (split; [lia | reflexivity]).
  - intros (v & H). lia.
Qed.
Lemma hex_val_spec : forall c v, hex_digit c v -> hex_val c = v /\ 0 <= v < 16 /\ is_xdigit c = true.
Proof.
  intros c v H. split; [|split; [unfold hex_digit in H; lia | apply xdigit_spec; exists v; exact H]].
  unfold hex_val. destruct H as [[H ->] | [[H ->] | [H ->]]].
  - destruct (Z.leb_spec 97 c); destruct (Z.leb_spec c 102); cbn [andb]; destruct (Z.leb_spec 65 c); destruct (Z.leb_spec c 70); cbn [andb]; lia.
  - destruct (Z.leb_spec 97 c); destruct (Z.leb_spec c 102); cbn [andb]; destruct (Z.leb_spec 65 c); destruct (Z.leb_spec c 70); cbn [andb]; lia.
  - destruct (Z.leb_spec 97 c); destruct (Z.leb_spec c 102); cbn [andb]; lia.
Qed.

Lemma existsb_in : forall c l, existsb (Z.eqb c) l = true <-> In c l.
Proof.
  intros c l. rewrite existsb_exists. split.
  - intros (x & H & E). apply Z.eqb_eq in E. subst. exact H.
  - intro H. exists c. split; [exact H | apply Z.eqb_refl].
Qed.
Lemma reserved_spec : forall c, is_reserved c = true <-> reserved c.
Proof. intro c. apply existsb_in. Qed.

Lemma unescaped_spec : forall comp c, unescaped comp c = true <-> left_alone comp c.
Proof.
  intros comp c. unfold unescaped, left_alone, unreserved, is_alnum, is_alpha, is_mark.
  rewrite !orb_true_iff, !andb_true_iff, negb_true_iff, !Z.leb_le, existsb_in, reserved_spec. tauto.
Qed.

(** ** hex2 *)
Lemma hex2_ok : forall a b x y r, hex_digit a x -> hex_digit b y ->
  hex2 (a :: b :: r) = SOk (16 * x + y, a, b, r) /\ 0 <= 16 * x + y < 256.
Proof.
  intros a b x y r A B. destruct (hex_val_spec _ _ A) as (Va & Ra & Xa). destruct (hex_val_spec _ _ B) as (Vb & Rb & Xb).
  unfold hex2. rewrite Xa, Xb, Va, Vb. cbn [negb]. rewrite lor_add by (try lia; change (2 ^ 4) with 16; lia).
  change (2 ^ 4) with 16. split; [do 4 f_equal; lia | lia].
Qed.

Lemma hex2_inv : forall c,
  match hex2 c with
  | SOk (v, a, b, r) => exists x y, c = a :: b :: r /\ hex_digit a x /\ hex_digit b y /\ v = 16 * x + y
  | SThrow => True
  | SUB => c = [] \/ exists a x, c = [a] /\ hex_digit a x
  end.
Proof.
  intros [|a [|b r]]; unfold hex2; [left; reflexivity| |].
  - destruct (is_xdigit a) eqn:E; cbn [negb]; [|exact I]. right. apply xdigit_spec in E. destruct E as [x X]. exists a, x. auto.
  - destruct (is_xdigit a) eqn:E; cbn [negb]; [|exact I]. destruct (is_xdigit b) eqn:F; cbn [negb]; [|exact I].
    apply xdigit_spec in E, F. destruct E as [x X], F as [y Y]. exists x, y. split; [reflexivity|]. split; [exact X|]. split; [exact Y|].
    destruct (hex2_ok a b x y r X Y) as [H _]. unfold hex2 in H.
    rewrite (proj2 (proj2 (hex_val_spec _ _ X))), (proj2 (proj2 (hex_val_spec _ _ Y))) in H. cbn [negb] in H. congruence.
Qed.

(** ** continuation bytes *)
Fixpoint accumulate (bs : list Z) (acc : Z) : Z :=
  match bs with [] => acc | b :: t => accumulate t (acc * 64 + (b - 0x80)) end.

Lemma tail_low : forall v acc, tail_byte v -> Z.lor (Z.shiftl acc 6) (Z.land v 0x3f) = acc * 64 + (v - 0x80).
Proof.
  intros v acc H. unfold tail_byte in H. change 0x3f with (Z.ones 6). rewrite land_low by lia.
  rewrite lor_add by (try lia; apply Z.mod_pos_bound; lia). change (2 ^ 6) with 64. lia.
Qed.

Lemma cont_ok : forall bs e acc q, escapes bs e -> Forall tail_byte bs ->
  cont (length bs) (e ++ q) acc = SOk (q, accumulate bs acc).
Proof.
  intros bs e acc q E. revert acc. induction E as [|a b x y bs s A B E IH]; intros acc T; [reflexivity|].
  pose proof (Forall_inv T) as T1. pose proof (Forall_inv_tail T) as T2. cbn [length cont app]. change (37 =? 37) with true. cbn [negb].
  destruct (hex2_ok a b x y (s ++ q) A B) as [H R]. rewrite H. cbn [sbind].
  rewrite cont_byte by exact R. unfold tail_byte in T1.
  rewrite (proj2 (Z.leb_le 0x80 (16 * x + y))), (proj2 (Z.leb_le (16 * x + y) 0xbf)) by lia. cbn [andb negb].
  rewrite tail_low by exact T1. cbn [accumulate]. apply IH. exact T2.
Qed.

Lemma cont_inv : forall n c acc, (n * 3 <= length c)%nat ->
  match cont n c acc with
  | SOk (r, v) => exists bs e, c = e ++ r /\ escapes bs e /\ Forall tail_byte bs /\ length bs = n /\ v = accumulate bs acc
  | SThrow => True
  | SUB => False
  end.
Proof.
  induction n as [|n IH]; intros c acc L; cbn [cont].
  - exists [], []. repeat split; constructor.
  - destruct c as [|c0 [|c1 [|c2 c]]]; cbn [length] in L; try lia.
    destruct (Z.eqb_spec c0 37) as [-> | N]; cbn [negb]; [|exact I].
    pose proof (hex2_inv (c1 :: c2 :: c)) as H. destruct (hex2 (c1 :: c2 :: c)) as [[[[v a] b] r]| |]; cbn [sbind]; [|exact I|].
    + destruct H as (x & y & E & A & B & ->). injection E as -> -> ->.
      destruct (hex2_ok a b x y r A B) as [_ R].
      rewrite cont_byte by exact R. destruct (Z.leb_spec 0x80 (16 * x + y)); destruct (Z.leb_spec (16 * x + y) 0xbf); cbn [andb negb]; try exact I.
      assert (T : tail_byte (16 * x + y)) by (unfold tail_byte; lia). rewrite tail_low by exact T.
      specialize (IH r (acc * 64 + (16 * x + y - 128)) ltac:(lia)).
      destruct (cont n r _) as [[r' v]| |]; [|exact I | exact IH].
      destruct IH as (bs & e & -> & E & F & LB & ->). exists (16 * x + y :: bs), (37 :: a :: b :: e).
      split; [reflexivity|]. split; [constructor; assumption|]. split; [constructor; assumption|]. split; [cbn [length]; lia | reflexivity].
    + destruct H as [H | (a & x & H & _)]; discriminate H.
Qed.

Lemma append_units : forall ucb v, 0 <= v -> append_uc ucb v = ucb ++ units v.
Proof.
  intros ucb v H. unfold append_uc, units. destruct (Z.ltb_spec 0xffff v); destruct (Z.ltb_spec v 0x10000); try lia; [|reflexivity].
  unfold uc_to_pair. rewrite Z.shiftr_div_pow2 by lia. change 0x3ff with (Z.ones 10). rewrite land_low by lia.
  change (2 ^ 10) with 1024. f_equal. f_equal; [lia|]. f_equal. lia.
Qed.

(** lead and continuation together are [lax] *)
Lemma lax_shape : forall bs u, lax bs u ->
  exists b t n x, bs = b :: t /\ 0 <= b < 256 /\ lead b = SOk (n, x) /\ length t = n /\ Forall tail_byte t /\
    0 <= accumulate t x /\ u = units (accumulate t x).
Proof.
  intros bs u H. destruct H as [b Hb | b c Hb Hc | b c d Hb Hc Hd | b c d e Hb Hc Hd He]; unfold tail_byte in *.
  - exists b, [], 0%nat, b. rewrite lead_spec by lia. unfold lead_arith. rewrite (proj2 (Z.ltb_lt b 0x80)) by lia.
    repeat split; try constructor; cbn [accumulate]; lia.
  - exists b, [c], 1%nat, (b - 0xc0). rewrite lead_spec by lia. unfold lead_arith.
    rewrite (proj2 (Z.ltb_ge b 0x80)), (proj2 (Z.ltb_ge b 0xc0)), (proj2 (Z.ltb_lt b 0xe0)) by lia.
    repeat split; try (repeat constructor; lia); cbn [accumulate]; lia.
  - exists b, [c; d], 2%nat, (b - 0xe0). rewrite lead_spec by lia. unfold lead_arith.
    rewrite (proj2 (Z.ltb_ge b 0x80)), (proj2 (Z.ltb_ge b 0xc0)), (proj2 (Z.ltb_ge b 0xe0)), (proj2 (Z.ltb_lt b 0xf0)) by lia.
    repeat split; try (repeat constructor; lia); cbn [accumulate]; try lia. f_equal. lia.
  - exists b, [c; d; e], 3%nat, (b - 0xf0). rewrite lead_spec by lia. unfold lead_arith.
    rewrite (proj2 (Z.ltb_ge b 0x80)), (proj2 (Z.ltb_ge b 0xc0)), (proj2 (Z.ltb_ge b 0xe0)), (proj2 (Z.ltb_ge b 0xf0)), (proj2 (Z.ltb_lt b 0xf8)) by lia.
    repeat split; try (repeat constructor; lia); cbn [accumulate]; try lia. f_equal. lia.
Qed.

Lemma lax_of : forall b n x t, 0 <= b < 256 -> lead b = SOk (n, x) -> length t = n -> Forall tail_byte t ->
  lax (b :: t) (units (accumulate t x)) /\ 0 <= accumulate t x.
Proof.
  intros b n x t Hb L N T. rewrite lead_spec in L by exact Hb. unfold lead_arith in L.
  assert (K : forall y : Z, Forall tail_byte t -> 0 <= y -> 0 <= accumulate t y).
  { clear. intros y F. revert y. induction F as [|c t H F IH]; intros y Hy; cbn [accumulate]; [exact Hy|]. apply IH. unfold tail_byte in H. lia. }
  assert (X : 0 <= x).
  { repeat (match type of L with (if ?a <? ?b then _ else _) = _ => destruct (Z.ltb_spec a b) end; try discriminate L; try (injection L as <- <-; lia)). }
  split; [|apply K; assumption]. clear K X.
  destruct (Z.ltb_spec b 0x80).
  { injection L as <- <-. destruct t; [|discriminate N]. apply (lax1 b). lia. }
  destruct (Z.ltb_spec b 0xc0); [discriminate L|].
  destruct (Z.ltb_spec b 0xe0).
  { injection L as <- <-. destruct t as [|c [|]]; try discriminate N. inversion T as [|? ? T1 T2]; subst. cbn [accumulate]. apply lax2; [lia | exact T1]. }
  destruct (Z.ltb_spec b 0xf0).
  { injection L as <- <-. destruct t as [|c [|d [|]]]; try discriminate N. inversion T as [|? ? T1 T2]; subst. inversion T2 as [|? ? T3 T4]; subst.
    cbn [accumulate]. replace (((b - 224) * 64 + (c - 128)) * 64 + (d - 128)) with ((b - 224) * 4096 + (c - 128) * 64 + (d - 128)) by ring.
    apply lax3; [lia | exact T1 | exact T3]. }
  destruct (Z.ltb_spec b 0xf8); [|discriminate L].
  injection L as <- <-. destruct t as [|c [|d [|e [|]]]]; try discriminate N.
  inversion T as [|? ? T1 T2]; subst. inversion T2 as [|? ? T3 T4]; subst. inversion T4 as [|? ? T5 T6]; subst.
  cbn [accumulate]. replace ((((b - 240) * 64 + (c - 128)) * 64 + (d - 128)) * 64 + (e - 128))
    with ((b - 240) * 262144 + (c - 128) * 4096 + (d - 128) * 64 + (e - 128)) by ring.
  apply lax4; [lia | assumption | assumption | assumption].
Qed.

Lemma escapes_length : forall bs e, escapes bs e -> length e = (3 * length bs)%nat.
Proof. intros bs e H. induction H; cbn [length]; lia. Qed.

Lemma escapes_inv : forall b0 t0 e, escapes (b0 :: t0) e ->
  exists a b x y s, b0 = 16 * x + y /\ e = 37 :: a :: b :: s /\ hex_digit a x /\ hex_digit b y /\ escapes t0 s.
Proof.
  intros b0 t0 e H. remember (b0 :: t0) as l eqn:El. destruct H as [|a b x y bs s A B E]; [discriminate El|].
  injection El as E1 E2. exists a, b, x, y, s. rewrite E2 in E. auto.
Qed.

(** ** the loop follows [decodes lax] *)
Lemma run_prefix : forall comp p t, decodes lax comp p t -> forall q ucb fuel, (length (p ++ q) < fuel)%nat ->
  exists fuel', (length q < fuel')%nat /\ decode_loop fuel comp (p ++ q) ucb = decode_loop fuel' comp q (ucb ++ t).
Proof.
  intros comp p t D. induction D as [| c s t N D IH | a b x y s t C A B R D IH | bs e u s t E U NR D IH]; intros q ucb fuel F.
  - exists fuel. rewrite app_nil_r. split; [exact F | reflexivity].
  - destruct fuel as [|fuel]; [lia|]. cbn [app length] in F. destruct (IH q (ucb ++ [c]) fuel ltac:(lia)) as (f' & L & E).
    exists f'. split; [exact L|]. cbn [app decode_loop]. rewrite (proj2 (Z.eqb_neq c 37) N). cbn [negb].
    rewrite E, <- app_assoc. reflexivity.
  - destruct fuel as [|fuel]; [lia|]. cbn [app length] in F. destruct (IH q (ucb ++ [37; a; b]) fuel ltac:(lia)) as (f' & L & E).
    exists f'. split; [exact L|]. cbn [app decode_loop]. change (37 =? 37) with true. cbn [negb length].
    destruct (Nat.ltb_spec (S (S (S (length (s ++ q))))) 2); [lia|].
    destruct (hex2_ok a b x y (s ++ q) A B) as [H1 _]. rewrite H1. subst comp. cbn [negb andb].
    rewrite (proj2 (reserved_spec _) R). rewrite E, <- app_assoc. reflexivity.
  - destruct fuel as [|fuel]; [lia|]. destruct (lax_shape _ _ U) as (b0 & t0 & n & x0 & -> & R0 & L0 & LN & T & AP & ->).
    destruct (escapes_inv _ _ _ E) as (a & b & x & y & s' & -> & -> & A & B & E'). clear E. subst n.
    rewrite <- app_assoc in F |- *. cbn [app length] in F. rewrite !app_length in F.
    destruct (IH q (ucb ++ units (accumulate t0 x0)) fuel) as (f' & L & Eq); [rewrite app_length; lia|].
    exists f'. split; [exact L|]. cbn [app decode_loop]. change (37 =? 37) with true. cbn [negb length].
    destruct (Nat.ltb_spec (S (S (S (length (s' ++ s ++ q))))) 2); [lia|].
    destruct (hex2_ok a b x y (s' ++ s ++ q) A B) as [H1 _]. rewrite H1.
    assert (NR' : negb comp && is_reserved (16 * x + y) = true -> t0 <> []).
    { intros K ->. apply andb_true_iff in K. destruct K as [K1 K2]. apply NR. apply negb_true_iff in K1. split; [exact K1|].
      exists (16 * x + y). split; [reflexivity | apply reserved_spec; exact K2]. }
    assert (NB : negb comp && is_reserved (16 * x + y) = false).
    { destruct (negb comp && is_reserved (16 * x + y)) eqn:K; [|reflexivity]. exfalso. apply (NR' eq_refl).
      apply andb_true_iff in K. destruct K as [_ K]. apply reserved_spec in K.
      assert (16 * x + y < 0x80) by (unfold reserved in K; cbn [In] in K; lia).
      rewrite lead_spec in L0 by exact R0. unfold lead_arith in L0. rewrite (proj2 (Z.ltb_lt _ 0x80)) in L0 by assumption.
      injection L0 as L0 _. destruct t0; [reflexivity | discriminate L0]. }
    rewrite NB, L0. rewrite app_length, (escapes_length _ _ E').
    destruct (Nat.ltb_spec (3 * length t0 + length (s ++ q)) (length t0 * 3)); [lia|].
    rewrite cont_ok by assumption. rewrite append_units by exact AP. rewrite Eq, <- app_assoc. reflexivity.
Qed.

(** every run is one of: complete, thrown, or the two characters at the end *)
Lemma run_cases : forall fuel comp c ucb, (length c < fuel)%nat ->
  match decode_loop fuel comp c ucb with
  | None => False
  | Some (SOk t) => exists t', t = ucb ++ t' /\ decodes lax comp c t'
  | Some SThrow => True
  | Some SUB => exists p t a x, c = p ++ [37; a] /\ hex_digit a x /\ decodes lax comp p t
  end.
Proof.
  induction fuel as [|fuel IH]; intros comp c ucb F; [lia|]. destruct c as [|c0 c']; cbn [decode_loop].
  { exists []. rewrite app_nil_r. split; [reflexivity | constructor]. }
  cbn [length] in F.
  assert (GO : forall r ucb' t0, (length r <= length c')%nat ->
    ucb' = ucb ++ t0 ->
    (forall s t, r = s -> decodes lax comp s t -> decodes lax comp (c0 :: c') (t0 ++ t)) ->
    (forall p' q t, r = p' ++ q -> decodes lax comp p' t -> exists p, c0 :: c' = p ++ q /\ decodes lax comp p (t0 ++ t)) ->
    match decode_loop fuel comp r ucb' with
    | None => False
    | Some (SOk t) => exists t', t = ucb ++ t' /\ decodes lax comp (c0 :: c') t'
    | Some SThrow => True
    | Some SUB => exists p t a x, c0 :: c' = p ++ [37; a] /\ hex_digit a x /\ decodes lax comp p t
    end).
  { intros r ucb' t0 L -> G1 G2. specialize (IH comp r (ucb ++ t0) ltac:(lia)).
    destruct (decode_loop fuel comp r (ucb ++ t0)) as [[t | |]|]; [|exact I | |exact IH].
    - destruct IH as (t' & -> & D). exists (t0 ++ t'). rewrite app_assoc. split; [reflexivity | apply (G1 r); [reflexivity | exact D]].
    - destruct IH as (p & t & a & x & E & X & D). destruct (G2 p [37; a] t E D) as (p2 & E2 & D2).
      exists p2, (t0 ++ t), a, x. auto. }
  destruct (Z.eqb_spec c0 37) as [-> | N]; cbn [negb].
  - cbn [length]. destruct (Nat.ltb_spec (S (length c')) 2) as [|L2]; [exact I|].
    pose proof (hex2_inv c') as H. destruct (hex2 c') as [[[[v a] b] r]| |]; [|exact I|].
    + destruct H as (x & y & -> & A & B & ->). cbn [length] in *. destruct (hex2_ok a b x y r A B) as [_ R].
      destruct (negb comp && is_reserved (16 * x + y)) eqn:K.
      * apply andb_true_iff in K. destruct K as [K1 K2]. apply negb_true_iff in K1. apply reserved_spec in K2.
        apply (GO r _ [37; a; b]); [lia | reflexivity | |].
        -- intros s t <- D. apply (D_keep lax comp a b x y); assumption.
        -- intros p' q t -> D. exists (37 :: a :: b :: p'). split; [reflexivity|]. apply (D_keep lax comp a b x y); assumption.
      * destruct (lead (16 * x + y)) as [[n bits]| |] eqn:LD; [|exact I | rewrite lead_spec in LD by exact R; unfold lead_arith in LD;
          repeat (match type of LD with (if ?a <? ?b then _ else _) = _ => destruct (a <? b) end; try discriminate LD)].
        destruct (Nat.ltb_spec (length r) (n * 3)) as [|LR]; [exact I|].
        pose proof (cont_inv n r bits LR) as CI. destruct (cont n r bits) as [[r' w]| |]; [|exact I | contradiction].
        destruct CI as (bs & e & -> & E & T & LB & ->).
        destruct (lax_of _ _ _ _ R LD LB T) as [LX AP]. rewrite append_units by exact AP.
        assert (NR : ~ (comp = false /\ exists r0, 16 * x + y :: bs = [r0] /\ reserved r0)).
        { intros [-> (r0 & Eq & RR)]. assert (Eq' : 16 * x + y = r0) by congruence. rewrite Eq' in K. apply reserved_spec in RR. rewrite RR in K. discriminate K. }
        assert (EE : escapes (16 * x + y :: bs) (37 :: a :: b :: e)) by (constructor; assumption).
        apply (GO r' _ (units (accumulate bs bits))); [rewrite app_length; lia | reflexivity | |].
        -- intros s t <- D. apply (D_escape lax comp _ _ _ r' t EE LX NR D).
        -- intros p' q t -> D. exists ((37 :: a :: b :: e) ++ p'). split; [cbn [app]; rewrite <- app_assoc; reflexivity|].
           apply (D_escape lax comp _ _ _ p' t EE LX NR D).
    + destruct H as [-> | (a & x & -> & X)]; [cbn [length] in L2; lia|].
      exists [], [], a, x. split; [reflexivity|]. split; [exact X | constructor].
  - apply (GO c' _ [c0]); [lia | reflexivity | |].
    + intros s t <- D. apply D_char; assumption.
    + intros p' q t -> D. exists (c0 :: p'). split; [reflexivity | apply D_char; assumption].
Qed.

Lemma decode_ok_iff : forall comp s t, uri_decode comp s = Some (SOk t) <-> decodes lax comp s t.
Proof.
  intros comp s t. unfold uri_decode. split.
  - intro H. pose proof (run_cases (S (length s)) comp s [] ltac:(lia)) as C. rewrite H in C. destruct C as (t' & -> & D). exact D.
  - intro D. destruct (run_prefix comp s t D [] [] (S (length s))) as (f & L & E); [rewrite app_nil_r; lia|].
    rewrite app_nil_r in E. rewrite E. cbn [length app] in *. destruct f; [lia | reflexivity].
Qed.

Lemma decode_ub_iff : forall comp s, uri_decode comp s = Some SUB <->
  exists p t a x, s = p ++ [37; a] /\ hex_digit a x /\ decodes lax comp p t.
Proof.
  intros comp s. unfold uri_decode. split.
  - intro H. pose proof (run_cases (S (length s)) comp s [] ltac:(lia)) as C. rewrite H in C. exact C.
  - intros (p & t & a & x & -> & X & D). destruct (run_prefix comp p t D [37; a] [] (S (length (p ++ [37; a])))) as (f & L & E); [lia|].
    rewrite E. cbn [length] in L. destruct f; [lia|]. cbn [decode_loop]. change (37 =? 37) with true. cbn [negb length Nat.ltb Nat.leb].
    unfold hex2. rewrite (proj2 (proj2 (hex_val_spec _ _ X))). reflexivity.
Qed.

Lemma decode_total : forall comp s, uri_decode comp s <> None.
Proof.
  intros comp s H. pose proof (run_cases (S (length s)) comp s [] ltac:(lia)) as C. unfold uri_decode in H. rewrite H in C. exact C.
Qed.

(** well-formed sequences are accepted *)
Lemma strict_lax : forall bs u, strict bs u -> lax bs u.
Proof.
  intros bs u (cp & S & -> & ->). unfold scalar in S. unfold utf8.
  destruct (Z.ltb_spec cp 0x80); [apply lax1; lia|].
  destruct (Z.ltb_spec cp 0x800).
  { replace cp with ((192 + cp / 64 - 192) * 64 + (128 + cp mod 64 - 128)) at 3 by lia. apply lax2; unfold tail_byte; lia. }
  destruct (Z.ltb_spec cp 0x10000).
  { replace cp with ((224 + cp / 4096 - 224) * 4096 + (128 + cp / 64 mod 64 - 128) * 64 + (128 + cp mod 64 - 128)) at 4 by lia.
    apply lax3; unfold tail_byte; lia. }
  replace cp with ((240 + cp / 262144 - 240) * 262144 + (128 + cp / 4096 mod 64 - 128) * 4096 + (128 + cp / 64 mod 64 - 128) * 64 + (128 + cp mod 64 - 128)) at 5 by lia.
  apply lax4; unfold tail_byte; lia.
Qed.

Lemma decodes_mono : forall (U V : list Z -> list Z -> Prop) comp s t, (forall bs u, U bs u -> V bs u) ->
  decodes U comp s t -> decodes V comp s t.
Proof.
  intros U V comp s t H D. induction D; [constructor | apply D_char; assumption | eapply D_keep; eassumption |].
  eapply D_escape; eauto.
Qed.

(** ** encoding *)
Lemma upper_spec : forall n, 0 <= n < 16 -> hex_char_u n = upper n /\ hex_digit (upper n) n.
Proof.
  intros n H. unfold hex_char_u, upper, hex_digit. destruct (Z.leb_spec n 9); destruct (Z.ltb_spec n 10); lia.
Qed.

Lemma escapes_percent : forall bs, Forall (fun b => 0 <= b < 256) bs -> escapes bs (percent bs).
Proof.
  induction bs as [|b bs IH]; intro H; [constructor|]. inversion H as [|? ? H1 H2]; subst.
  cbn [percent flat_map app]. fold (percent bs). replace b with (16 * (b / 16) + b mod 16) at 1 by lia.
  constructor; [apply upper_spec; lia | apply upper_spec; lia | apply IH; exact H2].
Qed.

Lemma tail_bits : forall x, Z.lor (Z.land x 0x3) 0x8 = 8 + x mod 4.
Proof.
  intro x. change 0x3 with (Z.ones 2). rewrite land_low by lia. change (2 ^ 2) with 4.
  assert (R : 0 <= x mod 4 < 4) by (apply Z.mod_pos_bound; lia). rewrite Z.lor_comm.
  change 8 with (Z.shiftl 2 2) at 1. rewrite lor_add by (try lia; exact R). reflexivity.
Qed.
Lemma lor_12 : forall x, 0 <= x < 4 -> Z.lor x 0xc = 12 + x.
Proof. intros x H. rewrite Z.lor_comm. change 0xc with (Z.shiftl 3 2) at 1. rewrite lor_add by (try lia; exact H). reflexivity. Qed.
Lemma land_15 : forall x, Z.land x 0xf = x mod 16.
Proof. intro x. change 0xf with (Z.ones 4). apply land_low. lia. Qed.

Lemma escape_spec : forall cp, 0 <= cp <= 0x10ffff -> escape cp = percent (utf8 cp).
Proof.
  intros cp H. unfold escape, utf8. cbv zeta. rewrite !tail_bits, !land_15, !Z.shiftr_div_pow2 by lia.
  change (2 ^ 4) with 16. change (2 ^ 6) with 64. change (2 ^ 10) with 1024. change (2 ^ 12) with 4096. change (2 ^ 16) with 65536. change (2 ^ 18) with 262144.
  destruct (Z.leb_spec cp 0x7f); destruct (Z.ltb_spec cp 0x80); try lia.
  { cbn [percent flat_map app]. rewrite !(fun n h => proj1 (upper_spec n h)) by lia. reflexivity. }
  destruct (Z.leb_spec cp 0x7ff); destruct (Z.ltb_spec cp 0x800); try lia.
  { rewrite lor_12 by lia. cbn [percent flat_map app]. rewrite !(fun n h => proj1 (upper_spec n h)) by lia.
    replace ((192 + cp / 64) / 16) with (12 + cp / 1024) by lia. replace ((192 + cp / 64) mod 16) with (cp / 64 mod 16) by lia.
    replace ((128 + cp mod 64) / 16) with (8 + cp / 16 mod 4) by lia. replace ((128 + cp mod 64) mod 16) with (cp mod 16) by lia. reflexivity. }
  destruct (Z.leb_spec cp 0xffff); destruct (Z.ltb_spec cp 0x10000); try lia.
  { cbn [percent flat_map app]. rewrite !(fun n h => proj1 (upper_spec n h)) by lia.
    replace ((224 + cp / 4096) / 16) with 14 by lia. replace ((224 + cp / 4096) mod 16) with (cp / 4096) by lia.
    replace ((128 + cp / 64 mod 64) / 16) with (8 + cp / 1024 mod 4) by lia. replace ((128 + cp / 64 mod 64) mod 16) with (cp / 64 mod 16) by lia.
    replace ((128 + cp mod 64) / 16) with (8 + cp / 16 mod 4) by lia. replace ((128 + cp mod 64) mod 16) with (cp mod 16) by lia. reflexivity. }
  cbn [percent flat_map app]. rewrite !(fun n h => proj1 (upper_spec n h)) by lia.
  replace ((240 + cp / 262144) / 16) with 15 by lia. replace ((240 + cp / 262144) mod 16) with (cp / 262144) by lia.
  replace ((128 + cp / 4096 mod 64) / 16) with (8 + cp / 65536 mod 4) by lia. replace ((128 + cp / 4096 mod 64) mod 16) with (cp / 4096 mod 16) by lia.
  replace ((128 + cp / 64 mod 64) / 16) with (8 + cp / 1024 mod 4) by lia. replace ((128 + cp / 64 mod 64) mod 16) with (cp / 64 mod 16) by lia.
  replace ((128 + cp mod 64) / 16) with (8 + cp / 16 mod 4) by lia. replace ((128 + cp mod 64) mod 16) with (cp mod 16) by lia. reflexivity.
Qed.

Lemma leading_spec : forall c, is_leading c = true <-> 0xd800 <= c <= 0xdbff.
Proof. intro c. unfold is_leading. rewrite andb_true_iff, !Z.leb_le. tauto. Qed.
Lemma trailing_spec : forall c, is_trailing c = true <-> 0xdc00 <= c <= 0xdfff.
Proof. intro c. unfold is_trailing. rewrite andb_true_iff, !Z.leb_le. tauto. Qed.

Lemma pair_units : forall h l, 0xd800 <= h <= 0xdbff -> 0xdc00 <= l <= 0xdfff ->
  0x10000 <= pair_to_uc h l <= 0x10ffff /\ units (pair_to_uc h l) = [h; l].
Proof.
  intros h l H L. unfold pair_to_uc. rewrite lor_add by (change (2 ^ 10) with 1024; lia). change (2 ^ 10) with 1024.
  split; [lia|]. unfold units. destruct (Z.ltb_spec ((h - 0xd800) * 1024 + (l - 0xdc00) + 0x10000) 0x10000); [lia|].
  f_equal; [lia|]. f_equal. lia.
Qed.

Lemma left_alone_ascii : forall comp c, left_alone comp c -> 0 < c < 128 /\ c <> 37.
Proof.
  intros comp c [[H | [H | [H | H]]] | [_ H]]; try (cbn [In] in H); try (unfold reserved in H; cbn [In] in H); lia.
Qed.

(** the loop on well-formed and ill-formed text *)
Lemma encode_step : forall comp cp s ucb, scalar cp ->
  encode_loop comp (units cp ++ s) ucb =
  encode_loop comp s (ucb ++ (if unescaped comp cp then [cp] else percent (utf8 cp))).
Proof.
  intros comp cp s ucb S. unfold scalar in S. unfold units. destruct (Z.ltb_spec cp 0x10000).
  - cbn [app encode_loop]. destruct (unescaped comp cp); [reflexivity|].
    assert (T : is_trailing cp = false) by (unfold is_trailing; destruct (Z.leb_spec 0xdc00 cp); destruct (Z.leb_spec cp 0xdfff); cbn [andb]; try reflexivity; lia).
    assert (L : is_leading cp = false) by (unfold is_leading; destruct (Z.leb_spec 0xd800 cp); destruct (Z.leb_spec cp 0xdbff); cbn [andb]; try reflexivity; lia).
    rewrite T, L, escape_spec by lia. reflexivity.
  - set (h := 0xd800 + (cp - 0x10000) / 1024). set (l := 0xdc00 + (cp - 0x10000) mod 1024).
    assert (Hh : 0xd800 <= h <= 0xdbff) by (unfold h; lia). assert (Hl : 0xdc00 <= l <= 0xdfff) by (unfold l; lia).
    assert (P : pair_to_uc h l = cp).
    { unfold pair_to_uc. rewrite lor_add by (change (2 ^ 10) with 1024; lia). change (2 ^ 10) with 1024. unfold h, l. lia. }
    cbn [app encode_loop].
    assert (U : unescaped comp h = false).
    { destruct (unescaped comp h) eqn:E; [|reflexivity]. apply unescaped_spec, left_alone_ascii in E. lia. }
    assert (U2 : unescaped comp cp = false).
    { destruct (unescaped comp cp) eqn:E; [|reflexivity]. apply unescaped_spec, left_alone_ascii in E. lia. }
    assert (T : is_trailing h = false) by (unfold is_trailing; destruct (Z.leb_spec 0xdc00 h); destruct (Z.leb_spec h 0xdfff); cbn [andb]; try reflexivity; lia).
    rewrite U, T, U2, (proj2 (leading_spec h) Hh), (proj2 (trailing_spec l) Hl), P, escape_spec by lia. reflexivity.
Qed.

Lemma encode_ok : forall comp cps ucb, Forall scalar cps ->
  exists t, encode_loop comp (units_of cps) ucb = SOk (ucb ++ t) /\ encodes comp (units_of cps) t /\
    decodes strict comp t (units_of cps) /\ Forall (fun c => c = 37 \/ left_alone comp c) t.
Proof.
  intros comp cps. induction cps as [|cp cps IH]; intros ucb S.
  - exists []. rewrite app_nil_r. split; [reflexivity|]. split; [constructor|]. split; constructor.
  - inversion S as [|? ? S1 S2]; subst. cbn [units_of flat_map]. fold (units_of cps).
    rewrite encode_step by exact S1. destruct (unescaped comp cp) eqn:U.
    + pose proof U as U'. apply unescaped_spec in U'. pose proof (left_alone_ascii _ _ U') as [R N].
      assert (UN : units cp = [cp]) by (unfold units; destruct (Z.ltb_spec cp 0x10000); [reflexivity | lia]). rewrite UN.
      destruct (IH (ucb ++ [cp]) S2) as (t & E & EN & DE & AL). exists (cp :: t). rewrite E, <- app_assoc.
      split; [reflexivity|]. split; [apply E_keep; assumption|]. split; [apply D_char; assumption|]. constructor; [right; exact U' | exact AL].
    + destruct (IH (ucb ++ percent (utf8 cp)) S2) as (t & E & EN & DE & AL). exists (percent (utf8 cp) ++ t). rewrite E, <- app_assoc.
      assert (NL : ~ left_alone comp cp) by (intro H; apply unescaped_spec in H; congruence).
      assert (BY : Forall (fun b => 0 <= b < 256) (utf8 cp)).
      { unfold scalar in S1. unfold utf8. destruct (Z.ltb_spec cp 0x80); [repeat constructor; lia|].
        destruct (Z.ltb_spec cp 0x800); [repeat constructor; lia|]. destruct (Z.ltb_spec cp 0x10000); repeat constructor; lia. }
      split; [reflexivity|]. split; [apply E_escape; assumption|]. split.
      * apply (D_escape strict comp (utf8 cp) _ (units cp)); [apply escapes_percent; exact BY | exists cp; auto | | exact DE].
        intros [-> (r & Eq & RR)]. apply NL. right. split; [reflexivity|].
        unfold utf8 in Eq. destruct (cp <? 0x80); [congruence|]. destruct (cp <? 0x800); [discriminate|]. destruct (cp <? 0x10000); discriminate.
      * apply Forall_app. split; [|exact AL]. clear - BY. induction BY as [|b bs H BY IH]; [constructor|].
        cbn [percent flat_map app]. fold (percent bs).
        assert (UP : forall n, 0 <= n < 16 -> upper n = 37 \/ left_alone comp (upper n)).
        { intros n Hn. right. left. unfold upper, unreserved. destruct (Z.ltb_spec n 10); lia. }
        constructor; [left; reflexivity|]. constructor; [apply UP; lia|]. constructor; [apply UP; lia | exact IH].
Qed.

Lemma encode_bad : forall comp s ucb, Forall (fun c => 0 <= c <= 0xffff) s -> (~ exists cps, Forall scalar cps /\ s = units_of cps) ->
  encode_loop comp s ucb = SThrow.
Proof.
  intros comp s. remember (length s) as n eqn:Hn. revert s Hn.
  induction n as [n IH] using lt_wf_ind. intros s Hn ucb W N.
  destruct s as [|c s]; [exfalso; apply N; exists []; split; [constructor | reflexivity]|].
  inversion W as [|? ? W1 W2]; subst.
  assert (ONE : forall u, scalar c -> c <= 0xffff -> encode_loop comp s u = SThrow).
  { intros u SC R. apply (IH (length s) ltac:(cbn [length]; lia) s eq_refl); [exact W2|].
    intros (cps & F & ->). apply N. exists (c :: cps). split; [constructor; assumption|].
    cbn [units_of flat_map]. fold (units_of cps). unfold units. destruct (Z.ltb_spec c 0x10000); [reflexivity | lia]. }
  cbn [encode_loop]. destruct (unescaped comp c) eqn:U.
  - apply unescaped_spec, left_alone_ascii in U. apply ONE; [left; lia | lia].
  - destruct (is_trailing c) eqn:T; [reflexivity|]. destruct (is_leading c) eqn:L.
    + destruct s as [|d s]; [reflexivity|]. destruct (is_trailing d) eqn:T2; [|reflexivity].
      apply leading_spec in L. apply trailing_spec in T2. inversion W2 as [|? ? W3 W4]; subst.
      apply (IH (length s) ltac:(cbn [length]; lia) s eq_refl); [exact W4|].
      intros (cps & F & ->). destruct (pair_units c d L T2) as [R UN]. apply N. exists (pair_to_uc c d :: cps).
      split; [constructor; [right; lia | exact F]|]. cbn [units_of flat_map]. rewrite UN. reflexivity.
    + apply ONE; [|lia].
      assert (~ (0xdc00 <= c <= 0xdfff)) by (rewrite <- trailing_spec; congruence).
      assert (~ (0xd800 <= c <= 0xdbff)) by (rewrite <- leading_spec; congruence). unfold scalar. lia.
Qed.

Lemma encode_lone : forall comp cps c r ucb, Forall scalar cps -> 0xd800 <= c <= 0xdfff ->
  ~ (c <= 0xdbff /\ exists d r', r = d :: r' /\ 0xdc00 <= d <= 0xdfff) ->
  encode_loop comp (units_of cps ++ c :: r) ucb = SThrow.
Proof.
  intros comp cps c r ucb F Hc N. revert ucb. induction F as [|x cps S F IH]; intro ucb.
  - cbn [units_of flat_map app encode_loop].
    assert (U : unescaped comp c = false) by (destruct (unescaped comp c) eqn:E; [apply unescaped_spec, left_alone_ascii in E; lia | reflexivity]).
    rewrite U. destruct (is_trailing c) eqn:T; [reflexivity|].
    assert (L : 0xd800 <= c <= 0xdbff) by (assert (~ 0xdc00 <= c <= 0xdfff) by (rewrite <- trailing_spec; congruence); lia).
    rewrite (proj2 (leading_spec c) L). destruct r as [|d r]; [reflexivity|]. destruct (is_trailing d) eqn:T2; [|reflexivity].
    apply trailing_spec in T2. exfalso. apply N. split; [lia|]. exists d, r. auto.
  - cbn [units_of flat_map]. fold (units_of cps). rewrite <- app_assoc, encode_step by exact S. apply IH.
Qed.
