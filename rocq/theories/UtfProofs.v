From Coq Require Import ZArith List Bool Lia.
Import ListNotations.
From Verif Require Import StrModel UriSpec UriProofs UtfModel UtfSpec.
Local Open Scope Z_scope.
Ltac Zify.zify_post_hook ::= Z.div_mod_to_equations.

Lemma byte_mod : forall x, byte x = x mod 256.
Proof. intro x. unfold byte. change 0xff with (Z.ones 8). apply land_low. lia. Qed.
Lemma shr : forall x k, 0 <= k -> Z.shiftr x k = x / 2 ^ k.
Proof. intros. apply Z.shiftr_div_pow2. assumption. Qed.
Lemma lor_shift : forall k x y, 0 <= k -> 0 <= y < 2 ^ k -> Z.lor y (Z.shiftl x k) = x * 2 ^ k + y.
Proof. intros. rewrite Z.lor_comm. apply lor_add; assumption. Qed.
Lemma land_6 : forall x, Z.land x 0x3f = x mod 64.
Proof. intro x. change 0x3f with (Z.ones 6). apply land_low. lia. Qed.
Lemma lor_80 : forall x, Z.lor (x mod 64) 0x80 = 128 + x mod 64.
Proof.
  intro x. assert (0 <= x mod 64 < 64) by (apply Z.mod_pos_bound; lia).
  change 0x80 with (Z.shiftl 2 6) at 1. rewrite lor_shift by (change (2 ^ 6) with 64; lia). reflexivity.
Qed.
Lemma b16_spec : forall h l, 0 <= l < 256 -> b16 h l = h * 256 + l.
Proof. intros h l H. unfold b16. rewrite lor_shift by (change (2 ^ 8) with 256; lia). reflexivity. Qed.

Lemma bytes_nonempty : forall e cp, (1 <= length (bytes_of e cp))%nat.
Proof.
  intros e cp. destruct e; cbn [bytes_of]; unfold utf8, units, be4.
  - destruct (cp <? 0x80); [cbn; lia|]. destruct (cp <? 0x800); [cbn; lia|]. destruct (cp <? 0x10000); cbn; lia.
  - destruct (cp <? 0x10000); cbn; lia.
  - destruct (cp <? 0x10000); cbn; lia.
  - cbn. lia.
  - cbn. lia.
Qed.

Definition max_bytes := 4%nat.
Lemma bytes_max : forall e cp, (length (bytes_of e cp) <= 4)%nat.
Proof.
  intros e cp. destruct e; cbn [bytes_of]; unfold utf8, units, be4.
  - destruct (cp <? 0x80); [cbn; lia|]. destruct (cp <? 0x800); [cbn; lia|]. destruct (cp <? 0x10000); cbn; lia.
  - destruct (cp <? 0x10000); cbn; lia.
  - destruct (cp <? 0x10000); cbn; lia.
  - cbn. lia.
  - cbn. lia.
Qed.

(** ** writing one character *)
Lemma lor_hi : forall k h x, 0 <= k -> 0 <= x < 2 ^ k -> Z.lor x (Z.shiftl h k) = h * 2 ^ k + x.
Proof. intros. apply lor_shift; assumption. Qed.

Lemma utf8_from_spec : forall cp len, 0 <= cp <= 0x10ffff -> utf8_from_uc cp len = FOk (utf8 cp).
Proof.
  intros cp len H. unfold utf8_from_uc, utf8. rewrite !byte_mod, !land_6, !lor_80, !shr by lia.
  change (2 ^ 6) with 64. change (2 ^ 12) with 4096. change (2 ^ 18) with 262144.
  destruct (Z.ltb_spec cp 0x80); [do 2 f_equal; lia|].
  destruct (Z.ltb_spec cp 0x800).
  { assert (E : Z.lor (cp / 64) 192 = 192 + cp / 64) by (apply (lor_hi 6 3 (cp / 64)); [lia | change (2 ^ 6) with 64; lia]). rewrite E. do 2 f_equal. lia. }
  destruct (Z.ltb_spec cp 0x10000).
  { assert (E : Z.lor (cp / 4096) 224 = 224 + cp / 4096) by (apply (lor_hi 4 14 (cp / 4096)); [lia | change (2 ^ 4) with 16; lia]). rewrite E. do 2 f_equal. lia. }
  destruct (Z.ltb_spec cp 0x200000); [|lia].
  assert (E : Z.lor (cp / 262144) 240 = 240 + cp / 262144) by (apply (lor_hi 3 30 (cp / 262144)); [lia | change (2 ^ 3) with 8; lia]). rewrite E. do 2 f_equal. lia.
Qed.

Lemma word_le : forall u, 0 <= u < 65536 -> [byte u; byte (Z.shiftr u 8)] = le2 u.
Proof. intros u H. rewrite !byte_mod, shr by lia. change (2 ^ 8) with 256. unfold le2. do 2 f_equal. lia. Qed.
Lemma word_be : forall u, 0 <= u < 65536 -> [byte (Z.shiftr u 8); byte u] = be2 u.
Proof. intros u H. rewrite !byte_mod, shr by lia. change (2 ^ 8) with 256. unfold be2. f_equal. lia. Qed.

Lemma ucs2_from_spec : forall (be : bool) cp len, 0 <= cp <= 0x10ffff ->
  let bs := flat_map (if be then be2 else le2) (units cp) in
  ucs2_from_uc be cp len = if (len <? length bs)%nat then FFull else FOk bs.
Proof.
  intros be cp len H bs. subst bs. unfold ucs2_from_uc, units. cbv zeta.
  destruct (Z.ltb_spec 0xffff cp); destruct (Z.ltb_spec cp 0x10000); try lia.
  - unfold uc_to_pair. rewrite (shr (cp - 0x10000) 10) by lia. change 0x3ff with (Z.ones 10). rewrite land_low by lia. change (2 ^ 10) with 1024.
    replace ((cp - 0x10000) / 1024 + 0xd800) with (0xd800 + (cp - 0x10000) / 1024) by lia.
    replace ((cp - 0x10000) mod 1024 + 0xdc00) with (0xdc00 + (cp - 0x10000) mod 1024) by lia.
    destruct be; cbn [flat_map].
    + rewrite !word_be by lia. reflexivity.
    + rewrite !word_le by lia. reflexivity.
  - destruct be; cbn [flat_map].
    + rewrite word_be by lia. reflexivity.
    + rewrite word_le by lia. reflexivity.
Qed.

Lemma ucs4_from_spec : forall (be : bool) cp len, 0 <= cp <= 0x10ffff ->
  let bs := if be then be4 cp else rev (be4 cp) in
  ucs4_from_uc be cp len = if (len <? length bs)%nat then FFull else FOk bs.
Proof.
  intros be cp len H bs. subst bs. unfold ucs4_from_uc. rewrite !byte_mod, !shr by lia. cbv zeta.
  change (2 ^ 24) with 16777216. change (2 ^ 16) with 65536. change (2 ^ 8) with 256.
  replace (cp / 16777216 mod 256) with (cp / 16777216) by lia.
  destruct be; reflexivity.
Qed.

Definition checks_room (e : encoding) : bool := match e with UTF8 => false | _ => true end.
Lemma from_uc_spec : forall e cp len, 0 <= cp <= 0x10ffff ->
  from_uc e cp len = if checks_room e && (len <? length (bytes_of e cp))%nat then FFull else FOk (bytes_of e cp).
Proof.
  intros e cp len H. destruct e; cbn [from_uc checks_room bytes_of andb].
  - apply utf8_from_spec. exact H.
  - apply (ucs2_from_spec false). exact H.
  - apply (ucs2_from_spec true). exact H.
  - apply (ucs4_from_spec false). exact H.
  - apply (ucs4_from_spec true). exact H.
Qed.

(** ** reading one character *)
Lemma utf8_to_spec : forall cp r, 0 <= cp <= 0x10ffff -> utf8_to_uc (utf8 cp ++ r) = TOk (length (utf8 cp)) cp.
Proof.
  intros cp r H. unfold utf8.
  destruct (Z.ltb_spec cp 0x80).
  { cbn [app utf8_to_uc length]. rewrite (proj2 (Z.ltb_lt cp 0x80)) by lia. reflexivity. }
  assert (LD : forall b n x, 0 <= b < 256 -> 128 <= b -> lead_arith b = SOk (n, x) -> UriModel.lead b = SOk (n, x)).
  { intros b n x R _ E. rewrite lead_spec by exact R. exact E. }
  assert (NZ : forall b, 128 <= b < 256 -> Z.land b 0x80 =? 0 = false).
  { intros b R. assert (C : up_to 256 (fun b => (b <? 128) || negb (Z.land b 0x80 =? 0)) = true) by (vm_compute; reflexivity).
    pose proof (up_to_spec 256 _ C b ltac:(lia)) as S. cbv beta in S. destruct (Z.ltb_spec b 128); [lia|]. cbn [orb] in S. apply negb_true_iff in S. exact S. }
  destruct (Z.ltb_spec cp 0x800).
  { set (b := 192 + cp / 64). assert (Hb : 192 <= b < 224) by (unfold b; lia).
    assert (L : UriModel.lead b = SOk (1%nat, b - 192)).
    { apply LD; [lia | lia|]. unfold lead_arith. rewrite (proj2 (Z.ltb_ge b 128)), (proj2 (Z.ltb_ge b 192)), (proj2 (Z.ltb_lt b 224)) by lia. reflexivity. }
    unfold UriModel.lead in L. rewrite NZ in L by lia. cbn [app utf8_to_uc length]. rewrite (proj2 (Z.ltb_ge b 128)) by lia.
    destruct (Z.land b 0xe0 =? 0xc0); [|destruct (Z.land b 0xf0 =? 0xe0); [congruence|]; destruct (Z.land b 0xf8 =? 0xf0); congruence].
    injection L as L. rewrite L, land_6, lor_add by (change (2 ^ 6) with 64; lia). change (2 ^ 6) with 64. f_equal. unfold b. lia. }
  destruct (Z.ltb_spec cp 0x10000).
  { set (b := 224 + cp / 4096). assert (Hb : 224 <= b < 240) by (unfold b; lia).
    assert (L : UriModel.lead b = SOk (2%nat, b - 224)).
    { apply LD; [lia | lia|]. unfold lead_arith. rewrite (proj2 (Z.ltb_ge b 128)), (proj2 (Z.ltb_ge b 192)), (proj2 (Z.ltb_ge b 224)), (proj2 (Z.ltb_lt b 240)) by lia. reflexivity. }
    unfold UriModel.lead in L. rewrite NZ in L by lia. cbn [app utf8_to_uc length]. rewrite (proj2 (Z.ltb_ge b 128)) by lia.
    destruct (Z.land b 0xe0 =? 0xc0); [congruence|]. destruct (Z.land b 0xf0 =? 0xe0); [|destruct (Z.land b 0xf8 =? 0xf0); congruence].
    injection L as L. rewrite L, !land_6.
    replace ((128 + cp / 64 mod 64) mod 64) with (cp / 64 mod 64) by lia. replace ((128 + cp mod 64) mod 64) with (cp mod 64) by lia.
    rewrite (lor_add 12) by (try rewrite Z.shiftl_mul_pow2 by lia; change (2 ^ 12) with 4096; change (2 ^ 6) with 64; lia).
    rewrite Z.shiftl_mul_pow2 by lia. change (2 ^ 12) with 4096. change (2 ^ 6) with 64.
    replace ((b - 224) * 4096 + cp / 64 mod 64 * 64) with (((b - 224) * 64 + cp / 64 mod 64) * 2 ^ 6) by (change (2 ^ 6) with 64; ring).
    rewrite <- Z.shiftl_mul_pow2 by lia. rewrite lor_add by (change (2 ^ 6) with 64; lia). change (2 ^ 6) with 64. f_equal. unfold b. lia. }
  set (b := 240 + cp / 262144). assert (Hb : 240 <= b < 248) by (unfold b; lia).
  assert (L : UriModel.lead b = SOk (3%nat, b - 240)).
  { apply LD; [lia | lia|]. unfold lead_arith. rewrite (proj2 (Z.ltb_ge b 128)), (proj2 (Z.ltb_ge b 192)), (proj2 (Z.ltb_ge b 224)), (proj2 (Z.ltb_ge b 240)), (proj2 (Z.ltb_lt b 248)) by lia. reflexivity. }
  unfold UriModel.lead in L. rewrite NZ in L by lia. cbn [app utf8_to_uc length]. rewrite (proj2 (Z.ltb_ge b 128)) by lia.
  destruct (Z.land b 0xe0 =? 0xc0); [congruence|]. destruct (Z.land b 0xf0 =? 0xe0); [congruence|]. destruct (Z.land b 0xf8 =? 0xf0); [|congruence].
  injection L as L. rewrite L, !land_6.
  replace ((128 + cp / 4096 mod 64) mod 64) with (cp / 4096 mod 64) by lia.
  replace ((128 + cp / 64 mod 64) mod 64) with (cp / 64 mod 64) by lia. replace ((128 + cp mod 64) mod 64) with (cp mod 64) by lia.
  rewrite (lor_add 18) by (try rewrite Z.shiftl_mul_pow2 by lia; change (2 ^ 18) with 262144; change (2 ^ 12) with 4096; lia).
  rewrite (Z.shiftl_mul_pow2 _ 12) by lia. change (2 ^ 18) with 262144. change (2 ^ 12) with 4096.
  replace ((b - 240) * 262144 + cp / 4096 mod 64 * 4096) with (((b - 240) * 64 + cp / 4096 mod 64) * 2 ^ 12) by (change (2 ^ 12) with 4096; ring).
  rewrite <- (Z.shiftl_mul_pow2 _ 12) by lia.
  rewrite (lor_add 12) by (try rewrite Z.shiftl_mul_pow2 by lia; change (2 ^ 12) with 4096; change (2 ^ 6) with 64; lia).
  rewrite Z.shiftl_mul_pow2 by lia. change (2 ^ 12) with 4096. change (2 ^ 6) with 64.
  replace (((b - 240) * 64 + cp / 4096 mod 64) * 4096 + cp / 64 mod 64 * 64) with ((((b - 240) * 64 + cp / 4096 mod 64) * 64 + cp / 64 mod 64) * 2 ^ 6) by (change (2 ^ 6) with 64; ring).
  rewrite <- Z.shiftl_mul_pow2 by lia. rewrite lor_add by (change (2 ^ 6) with 64; lia). change (2 ^ 6) with 64. f_equal. unfold b. lia.
Qed.

Lemma ucs2_to_spec : forall (be : bool) cp r, scalar cp ->
  let bs := flat_map (if be then be2 else le2) (units cp) in
  ucs2_to_uc be (bs ++ r) = TOk (length bs) cp.
Proof.
  intros be cp r H bs. subst bs. unfold scalar in H.
  assert (W : forall u, 0 <= u < 65536 -> b16 (u / 256) (u mod 256) = u) by (intros u R; rewrite b16_spec by lia; lia).
  unfold units. destruct (Z.ltb_spec cp 0x10000).
  - assert (L : is_leading cp = false) by (unfold is_leading; destruct (Z.leb_spec 0xd800 cp); destruct (Z.leb_spec cp 0xdbff); cbn [andb]; try reflexivity; lia).
    destruct be; cbn [flat_map app length be2 le2 ucs2_to_uc]; rewrite W, L by lia; reflexivity.
  - set (h := 0xd800 + (cp - 0x10000) / 1024). set (l := 0xdc00 + (cp - 0x10000) mod 1024).
    assert (Hh : 0xd800 <= h <= 0xdbff) by (unfold h; lia). assert (Hl : 0xdc00 <= l <= 0xdfff) by (unfold l; lia).
    assert (P : pair_to_uc h l = cp).
    { unfold pair_to_uc. rewrite lor_add by (change (2 ^ 10) with 1024; lia). change (2 ^ 10) with 1024. unfold h, l. lia. }
    destruct be; cbn [flat_map app length be2 le2 ucs2_to_uc]; rewrite !W by lia;
      rewrite (proj2 (leading_spec h) Hh), (proj2 (trailing_spec l) Hl), P; reflexivity.
Qed.

Lemma ucs4_to_spec : forall (be : bool) cp r, 0 <= cp <= 0x10ffff ->
  ucs4_to_uc be ((if be then be4 cp else rev (be4 cp)) ++ r) = TOk 4 cp.
Proof.
  intros be cp r H.
  assert (E : b32 (cp / 16777216) (cp / 65536 mod 256) (cp / 256 mod 256) (cp mod 256) = TOk 4 cp).
  { unfold b32. destruct (Z.leb_spec 0x80 (cp / 16777216)); [lia|]. f_equal.
    replace (cp / 16777216) with 0 by lia. change (Z.shiftl 0 24) with 0. rewrite Z.lor_0_l.
    rewrite (lor_add 16) by (try rewrite Z.shiftl_mul_pow2 by lia; change (2 ^ 16) with 65536; change (2 ^ 8) with 256; lia).
    rewrite Z.shiftl_mul_pow2 by lia. change (2 ^ 16) with 65536. change (2 ^ 8) with 256.
    replace (cp / 65536 mod 256 * 65536 + cp / 256 mod 256 * 256) with ((cp / 65536 mod 256 * 256 + cp / 256 mod 256) * 2 ^ 8) by (change (2 ^ 8) with 256; ring).
    rewrite <- Z.shiftl_mul_pow2 by lia. rewrite lor_add by (change (2 ^ 8) with 256; lia). change (2 ^ 8) with 256. lia. }
  destruct be; cbn [rev app be4 ucs4_to_uc]; exact E.
Qed.

Lemma scalar_range : forall cp, scalar cp -> 0 <= cp <= 0x10ffff.
Proof. unfold scalar. intros. lia. Qed.

Lemma to_uc_spec : forall e cp r, scalar cp -> to_uc e (bytes_of e cp ++ r) = TOk (length (bytes_of e cp)) cp.
Proof.
  intros e cp r H. pose proof (scalar_range _ H). destruct e; cbn [to_uc bytes_of].
  - apply utf8_to_spec. assumption.
  - apply (ucs2_to_spec false). assumption.
  - apply (ucs2_to_spec true). assumption.
  - apply (ucs4_to_spec false). assumption.
  - apply (ucs4_to_spec true). assumption.
Qed.

(** ** the loop *)
Lemma text_cons : forall e cp cps, text e (cp :: cps) = bytes_of e cp ++ text e cps.
Proof. reflexivity. Qed.
Lemma text_app : forall e a b, text e (a ++ b) = text e a ++ text e b.
Proof. intros e a b. unfold text. apply flat_map_app. Qed.
Lemma text_nonempty : forall e cp cps, exists b t, text e (cp :: cps) = b :: t.
Proof.
  intros e cp cps. rewrite text_cons. pose proof (bytes_nonempty e cp). destruct (bytes_of e cp) as [|b t]; cbn [length] in *; [lia|].
  exists b, (t ++ text e cps). reflexivity.
Qed.

Lemma run_step : forall ei eo cp cps ol out fuel, scalar cp -> (0 < ol)%nat ->
  run_loop (S fuel) ei eo (text ei (cp :: cps)) ol out =
  if checks_room eo && (ol <? length (bytes_of eo cp))%nat then Some (RFalse (text ei (cp :: cps)) out)
  else if (ol <? length (bytes_of eo cp))%nat then Some RUB
  else run_loop fuel ei eo (text ei cps) (ol - length (bytes_of eo cp)) (out ++ bytes_of eo cp).
Proof.
  intros ei eo cp cps ol out fuel S L. destruct (text_nonempty ei cp cps) as (b & t & E). destruct ol as [|ol]; [lia|].
  cbn [run_loop]. rewrite E. rewrite <- E. rewrite (text_cons ei), to_uc_spec, from_uc_spec by (try apply scalar_range; exact S).
  destruct (checks_room eo && _); [reflexivity|]. destruct (_ <? _)%nat; [reflexivity|].
  rewrite skipn_app, skipn_all2, Nat.sub_diag by lia. reflexivity.
Qed.

Lemma run_enough : forall ei eo cps ol out fuel, Forall scalar cps -> (length (text eo cps) <= ol)%nat -> (length (text ei cps) < fuel)%nat ->
  run_loop fuel ei eo (text ei cps) ol out = Some (ROk [] (out ++ text eo cps)).
Proof.
  intros ei eo cps. induction cps as [|cp cps IH]; intros ol out fuel S L F.
  - destruct fuel; [cbn in F; lia|]. cbn. rewrite app_nil_r. reflexivity.
  - inversion S as [|? ? S1 S2]; subst. rewrite text_cons, app_length in L. rewrite text_cons, app_length in F.
    pose proof (bytes_nonempty eo cp). pose proof (bytes_nonempty ei cp). destruct fuel as [|fuel]; [lia|].
    rewrite run_step by (try assumption; lia). destruct (Nat.ltb_spec ol (length (bytes_of eo cp))); [lia|]. rewrite andb_false_r.
    rewrite IH by (try assumption; lia). rewrite text_cons, <- app_assoc. reflexivity.
Qed.

(** what happens when the output buffer may be too small *)
Lemma run_bounded : forall ei eo cps ol out fuel, Forall scalar cps -> (length (text ei cps) < fuel)%nat ->
  exists pre post, cps = pre ++ post /\ (length (text eo pre) <= ol)%nat /\
    ((post = [] /\ run_loop fuel ei eo (text ei cps) ol out = Some (ROk [] (out ++ text eo pre))) \/
     (length (text eo pre) = ol /\ run_loop fuel ei eo (text ei cps) ol out = Some (ROk (text ei post) (out ++ text eo pre))) \/
     exists cp rest, post = cp :: rest /\ (length (text eo pre) < ol < length (text eo (pre ++ [cp])))%nat /\
       run_loop fuel ei eo (text ei cps) ol out =
       Some (if checks_room eo then RFalse (text ei post) (out ++ text eo pre) else RUB)).
Proof.
  intros ei eo cps. induction cps as [|cp cps IH]; intros ol out fuel S F.
  - exists [], []. destruct fuel; [cbn in F; lia|]. split; [reflexivity|]. split; [cbn; lia|]. left. split; [reflexivity|].
    cbn. rewrite app_nil_r. reflexivity.
  - inversion S as [|? ? S1 S2]; subst. rewrite text_cons, app_length in F. pose proof (bytes_nonempty ei cp).
    destruct fuel as [|fuel]; [lia|]. destruct ol as [|ol'].
    + exists [], (cp :: cps). split; [reflexivity|]. split; [cbn; lia|]. right. left. split; [reflexivity|].
      destruct (text_nonempty ei cp cps) as (b & t & E). cbn [app]. rewrite E. cbn. rewrite app_nil_r. reflexivity.
    + set (ol := Datatypes.S ol') in *. assert (OP : (0 < ol)%nat) by (unfold ol; lia). clearbody ol. clear ol'.
      rewrite run_step by assumption. destruct (Nat.ltb_spec ol (length (bytes_of eo cp))) as [L | L].
      * exists [], (cp :: cps). split; [reflexivity|]. split; [cbn; lia|]. right. right. exists cp, cps. split; [reflexivity|].
        split; [cbn [app]; rewrite text_cons; cbn [text flat_map length]; rewrite app_nil_r; lia|].
        rewrite andb_true_r. cbn [text flat_map app]. rewrite app_nil_r. destruct (checks_room eo); reflexivity.
      * rewrite andb_false_r. destruct (IH (ol - length (bytes_of eo cp))%nat (out ++ bytes_of eo cp) fuel S2 ltac:(lia)) as (pre & post & -> & LE & CS).
        exists (cp :: pre), post. split; [reflexivity|]. rewrite text_cons, app_length. split; [lia|].
        destruct CS as [[-> R] | [[E R] | (cp' & rest & -> & LT & R)]].
        -- left. split; [reflexivity|]. rewrite R, <- app_assoc. reflexivity.
        -- right. left. split; [lia|]. rewrite R, <- app_assoc. reflexivity.
        -- right. right. exists cp', rest. split; [reflexivity|]. cbn [app]. rewrite (text_cons eo cp (pre ++ [cp'])), app_length.
           split; [lia|]. rewrite R, <- app_assoc. reflexivity.
Qed.

(** ** the growing buffer *)
Lemma grow : forall inl num cap, (num <= cap)%nat ->
  (4 <= Nat.max 32 (Nat.max (inl + num) (cap * 2)) - num /\ num <= Nat.max 32 (Nat.max (inl + num) (cap * 2)))%nat.
Proof. intros. lia. Qed.

Lemma buffer_ok : forall ei eo fuel cps (ov : bool) bytes cap, checks_room eo = true -> Forall scalar cps -> (length bytes <= cap)%nat ->
  (ov = true -> cps <> []) ->
  (2 * length (text ei cps) + (if ov then 0 else 1) < fuel)%nat ->
  exists cap', buffer_loop fuel ei eo (text ei cps) ov bytes cap = Some (BOk (bytes ++ text eo cps) cap') /\
    (length (bytes ++ text eo cps) <= cap')%nat.
Proof.
  intros ei eo fuel. induction fuel as [|fuel IH]; intros cps ov bytes cap CR S L OV F; [lia|].
  destruct cps as [|cp cps].
  { destruct ov; [exfalso; apply OV; reflexivity|]. cbn. exists cap. rewrite app_nil_r. split; [reflexivity | exact L]. }
  destruct (text_nonempty ei cp cps) as (b & t & E). cbn [buffer_loop]. rewrite E. rewrite <- E. cbv zeta.
  set (cap' := if _ || _ then _ else _).
  assert (G : (length bytes <= cap')%nat /\ (1 <= cap' - length bytes)%nat /\ (ov = true -> (4 <= cap' - length bytes)%nat)).
  { unfold cap'. pose proof (grow (length (text ei (cp :: cps))) _ _ L) as [G1 G2].
    destruct (Nat.ltb_spec (cap - length bytes) (length (text ei (cp :: cps)))) as [C | C]; [cbn [orb]; lia|].
    destruct ov; cbn [orb]; [lia|]. rewrite E in C. cbn [length] in C. split; [exact L|]. split; [lia | discriminate]. }
  clearbody cap'. destruct G as (G1 & G2 & G3).
  unfold conv_run. destruct (run_bounded ei eo (cp :: cps) (cap' - length bytes) [] (Datatypes.S (length (text ei (cp :: cps)))) S ltac:(lia))
    as (pre & post & EQ & LE & CS). cbn [app] in CS.
  assert (SP : Forall scalar post) by (rewrite EQ in S; apply Forall_app in S; tauto).
  assert (TX : text eo (cp :: cps) = text eo pre ++ text eo post) by (rewrite EQ; apply text_app).
  assert (TI : length (text ei (cp :: cps)) = (length (text ei pre) + length (text ei post))%nat) by (rewrite EQ, text_app; apply app_length).
  assert (NE : forall x pre', pre = x :: pre' -> exists c l, text eo pre = c :: l /\ (1 <= length (text ei pre))%nat).
  { intros x pre' ->. destruct (text_nonempty eo x pre') as (c & l & E2). exists c, l. split; [exact E2|].
    destruct (text_nonempty ei x pre') as (c3 & l3 & E3). rewrite E3. cbn [length]. lia. }
  destruct CS as [[-> R] | [[E2 R] | (cp' & rest & -> & LT & R)]].
  - rewrite R. destruct pre as [|x pre']; [discriminate EQ|]. destruct (NE x pre' eq_refl) as (c & l & E3 & LI). rewrite E3. rewrite <- E3.
    destruct (IH [] false (bytes ++ text eo (x :: pre')) cap' CR SP) as (c' & R' & L'); [rewrite app_length; lia | discriminate | destruct ov; cbn [text flat_map length]; lia|].
    exists c'. rewrite TX, app_assoc. split; [exact R' | exact L'].
  - rewrite R. destruct pre as [|x pre']; [cbn in E2; lia|]. destruct (NE x pre' eq_refl) as (c & l & E3 & LI). rewrite E3. rewrite <- E3.
    destruct (IH post false (bytes ++ text eo (x :: pre')) cap' CR SP) as (c' & R' & L'); [rewrite app_length; lia | discriminate | destruct ov; lia|].
    exists c'. rewrite TX, app_assoc. split; [exact R' | exact L'].
  - rewrite R, CR.
    destruct (IH (cp' :: rest) true (bytes ++ text eo pre) cap' CR SP) as (c' & R' & L'); [rewrite app_length; lia | discriminate | |].
    + destruct pre as [|x pre'].
      * destruct ov; [|lia]. exfalso. cbn [app] in LT. unfold text in LT at 2. cbn [flat_map] in LT. rewrite app_nil_r in LT.
        pose proof (bytes_max eo cp'). specialize (G3 eq_refl). lia.
      * destruct (NE x pre' eq_refl) as (c & l & E3 & LI). destruct ov; lia.
    + exists c'. rewrite TX, app_assoc. split; [exact R' | exact L'].
Qed.

(** to UTF-8: safe when no character takes more room than before *)
Lemma buffer_utf8 : forall ei cps bytes cap, Forall scalar cps -> (length bytes <= cap)%nat ->
  Forall (fun cp => (length (utf8 cp) <= length (bytes_of ei cp))%nat) cps ->
  exists cap', conv_to_buffer ei UTF8 (text ei cps) bytes cap = Some (BOk (bytes ++ text UTF8 cps) cap') /\
    (length (bytes ++ text UTF8 cps) <= cap')%nat.
Proof.
  intros ei cps bytes cap S L B. unfold conv_to_buffer. destruct cps as [|cp cps].
  { exists cap. cbn. rewrite app_nil_r. split; [reflexivity | exact L]. }
  destruct (text_nonempty ei cp cps) as (b & t & E).
  assert (LEN : (length (text UTF8 (cp :: cps)) <= length (text ei (cp :: cps)))%nat).
  { clear - B. induction (cp :: cps) as [|c l IH]; [cbn; lia|]. inversion B as [|? ? B1 B2]; subst. rewrite !text_cons, !app_length.
    specialize (IH B2). cbn [bytes_of]. lia. }
  remember (2 * length (text ei (cp :: cps)))%nat as f eqn:Hf. assert (FP : (0 < f)%nat) by (rewrite Hf, E; cbn [length]; lia). clear Hf.
  cbn [buffer_loop]. rewrite E. rewrite <- E. cbv zeta. set (cap' := if _ || _ then _ else _).
  assert (G : (length bytes + length (text ei (cp :: cps)) <= cap')%nat).
  { unfold cap'. destruct (Nat.ltb_spec (cap - length bytes) (length (text ei (cp :: cps)))); cbn [orb]; lia. }
  clearbody cap'. unfold conv_run. rewrite run_enough by (try assumption; lia). cbn [app].
  destruct (text_nonempty UTF8 cp cps) as (c & l & E2). rewrite E2. rewrite <- E2.
  exists cap'. split; [reflexivity|]. rewrite app_length. lia.
Qed.

(** ** Arbitrary units *)
Lemma run_step_gen : forall ei eo ip n uc ol out fuel, ip <> [] -> to_uc ei ip = TOk n uc -> 0 <= uc <= 0x10ffff -> (length (bytes_of eo uc) <= ol)%nat -> (0 < ol)%nat ->
  run_loop (S fuel) ei eo ip ol out = run_loop fuel ei eo (skipn n ip) (ol - length (bytes_of eo uc)) (out ++ bytes_of eo uc).
Proof.
  intros ei eo ip n uc ol out fuel NE T R L P. destruct ip as [|b t]; [congruence|]. destruct ol as [|ol]; [lia|]. cbn [run_loop]. rewrite T, from_uc_spec by exact R.
  assert (Q : (S ol <? length (bytes_of eo uc))%nat = false) by (apply Nat.ltb_ge; exact L). rewrite Q, andb_false_r, Q. reflexivity.
Qed.
Lemma word_value : forall (be : bool) u, 0 <= u < 65536 -> (if be then b16 (nth 0 (be2 u) 0) (nth 1 (be2 u) 0) else b16 (nth 1 (le2 u) 0) (nth 0 (le2 u) 0)) = u.
Proof. intros be u H. destruct be; cbn [nth be2 le2]; rewrite b16_spec; lia. Qed.
Lemma is_leading_lead : forall u, is_leading u = lead u. Proof. reflexivity. Qed.
Lemma is_trailing_trail : forall u, is_trailing u = trail u. Proof. reflexivity. Qed.
Lemma lead_range : forall u, lead u = true <-> 0xd800 <= u <= 0xdbff.
Proof. intro u. unfold lead. rewrite andb_true_iff, !Z.leb_le. tauto. Qed.
Lemma trail_range : forall u, trail u = true <-> 0xdc00 <= u <= 0xdfff.
Proof. intro u. unfold trail. rewrite andb_true_iff, !Z.leb_le. tauto. Qed.
Lemma words_cons : forall be u us, words be (u :: us) = (if be then be2 u else le2 u) ++ words be us.
Proof. intros [] u us; reflexivity. Qed.
Lemma ucs2_at : forall (be : bool) u us, 0 <= u < 65536 -> Forall (fun v => 0 <= v < 65536) us ->
  ucs2_to_uc be (words be (u :: us)) =
  if lead u then match us with [] => TMore | v :: _ => if trail v then TOk 4 (0x10000 + (u - 0xd800) * 1024 + (v - 0xdc00)) else TOk 2 u end else TOk 2 u.
Proof.
  intros be u us R RS. assert (W : forall u, 0 <= u < 65536 -> b16 (u / 256) (u mod 256) = u) by (intros x X; rewrite b16_spec by lia; lia).
  assert (PV : forall v, lead u = true -> trail v = true -> pair_to_uc u v = 0x10000 + (u - 0xd800) * 1024 + (v - 0xdc00)).
  { intros v A B. apply lead_range in A. apply trail_range in B. unfold pair_to_uc. rewrite lor_add by (change (2 ^ 10) with 1024; lia). change (2 ^ 10) with 1024. lia. }
  destruct us as [|v us].
  - destruct be; cbn [words flat_map app be2 le2 ucs2_to_uc]; rewrite W by exact R; rewrite is_leading_lead; destruct (lead u); reflexivity.
  - inversion RS; subst. destruct be; cbn [words flat_map app be2 le2 ucs2_to_uc]; rewrite !W by assumption; rewrite is_leading_lead, is_trailing_trail; destruct (lead u) eqn:L; cbn [negb]; try reflexivity; destruct (trail v) eqn:T; cbn [negb]; try reflexivity; rewrite (PV v eq_refl T); reflexivity.
Qed.
Lemma words_run : forall (be : bool) eo m us ol out fuel, (length us <= m)%nat -> Forall (fun v => 0 <= v < 65536) us -> (length (text eo (points us)) <= ol)%nat -> (length us < fuel)%nat ->
  run_loop fuel (if be then UCS2BE else UCS2LE) eo (words be us) ol out = Some (ROk (words be (left_over us)) (out ++ text eo (points us))) \/
  ol = O /\ points us = [] /\ run_loop fuel (if be then UCS2BE else UCS2LE) eo (words be us) ol out = Some (ROk (words be us) out) /\ left_over us = us.
Proof.
  intros be eo. induction m as [|m IH]; intros us ol out fuel M R L F.
  - destruct us; [|cbn in M; lia]. left. destruct fuel; [lia|]. cbn. rewrite app_nil_r. reflexivity.
  - destruct us as [|u us]; [left; destruct fuel; [lia|]; cbn; rewrite app_nil_r; reflexivity|]. inversion R; subst. destruct fuel as [|fuel]; [lia|]. cbn [length] in *.
    assert (NE : words be (u :: us) <> []) by (rewrite words_cons; destruct be; discriminate).
    assert (TO : to_uc (if be then UCS2BE else UCS2LE) (words be (u :: us)) = ucs2_to_uc be (words be (u :: us))) by (destruct be; reflexivity).
    assert (SK2 : forall us, skipn 2 (words be (u :: us)) = words be us) by (intro; rewrite words_cons; destruct be; reflexivity).
    assert (GO : forall uc us' n, ucs2_to_uc be (words be (u :: us)) = TOk n uc -> 0 <= uc <= 0x10ffff -> points (u :: us) = uc :: points us' -> left_over (u :: us) = left_over us' -> skipn n (words be (u :: us)) = words be us' -> (length us' <= m)%nat -> Forall (fun v => 0 <= v < 65536) us' -> (length us' < fuel)%nat ->
      run_loop (S fuel) (if be then UCS2BE else UCS2LE) eo (words be (u :: us)) ol out = Some (ROk (words be (left_over (u :: us))) (out ++ text eo (points (u :: us))))).
    { intros uc us' n T U P LO SK M' R' F'. rewrite P in *. rewrite text_cons, app_length in L. pose proof (bytes_nonempty eo uc). rewrite LO. rewrite (run_step_gen _ eo _ n uc) by (try rewrite TO; try assumption; lia). rewrite SK.
      destruct (IH us' (ol - length (bytes_of eo uc))%nat (out ++ bytes_of eo uc) fuel M' R' ltac:(lia) F') as [-> | (_ & P' & -> & LO')].
      - rewrite text_cons, app_assoc. reflexivity.
      - rewrite LO', text_cons, P'. cbn [text flat_map]. rewrite app_nil_r. reflexivity. }
    assert (U2 := ucs2_at be u us H1 H2). destruct (lead u) eqn:LU.
    + destruct us as [|v us].
      * cbn [points left_over]. rewrite LU. destruct ol as [|ol].
        -- right. split; [reflexivity|]. split; [reflexivity|]. split; [|reflexivity]. cbn [run_loop]. destruct (words be [u]); reflexivity.
        -- left. cbn [run_loop]. destruct (words be [u]) as [|b t] eqn:WE; [congruence|]. rewrite <- WE in *. rewrite TO, U2. cbn [text flat_map]. rewrite app_nil_r. rewrite WE. reflexivity.
      * inversion H2; subst. destruct (trail v) eqn:TV.
        -- left. eapply (GO _ us); [exact U2 | apply lead_range in LU; apply trail_range in TV; lia | cbn [points]; rewrite LU, TV; reflexivity | cbn [left_over]; rewrite LU, TV; reflexivity | rewrite !words_cons; destruct be; reflexivity | cbn [length] in *; lia | assumption | cbn [length] in *; lia].
        -- left. eapply (GO _ (v :: us)); [exact U2 | lia | cbn [points]; rewrite LU, TV; reflexivity | cbn [left_over]; rewrite LU, TV; reflexivity | apply SK2 | lia | assumption | lia].
    + left. eapply (GO _ us); [exact U2 | lia | cbn [points]; rewrite LU; reflexivity | | apply SK2 | lia | assumption | lia].
      destruct us as [|v us]; cbn [left_over]; rewrite LU; reflexivity.
Qed.
