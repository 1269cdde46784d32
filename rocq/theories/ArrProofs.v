From Coq Require Import ZArith List Bool Lia Sorting.Sorted.
Import ListNotations.
From Verif Require Import StrModel StoreModel StoreSpec StoreProofs ObjModel ObjSpec ObjProofs.
Local Open Scope Z_scope.

(** descriptors acceptable to a non-configurable property *)
Definition cf_ok (d : desc) : bool := negb (flag (d_cf d)).
Definition en_ok (d : desc) (p : prop) : bool := match d_en d with Some e => Bool.eqb e (en p) | None => true end.

Lemma pdefine_data : forall e d p, acc p = false -> cf p = false -> wr p = true -> is_acc d = false -> cf_ok d = true -> en_ok d p = true ->
  pdefine e d (Some p) = (true, Some {| acc := false; wr := keep (d_wr d) true; en := en p; cf := false; pval := keep (d_val d) (pval p); pget := pget p; pset := pset p |}).
Proof.
  intros e d p A C W NA CO EO. unfold pdefine. destruct p as [pa pw pe pc pv pg ps]. cbn [acc cf wr en pval pget pset] in *. subst.
  unfold cf_ok in CO. unfold en_ok in EO. cbn [en] in EO.
  destruct (no_flags d) eqn:NF.
  - unfold no_flags, is_data in NF. rewrite !andb_true_iff, !negb_true_iff, orb_false_iff in NF. destruct NF as (((_ & NW & NV) & _) & _).
    destruct (d_wr d); [discriminate|]. destruct (d_val d); [discriminate|]. reflexivity.
  - assert (RF : refused d (desc_of {| acc := false; wr := true; en := pe; cf := false; pval := pv; pget := pg; pset := ps |}) = false).
    { unfold refused, desc_of. cbn [acc en cf wr pval d_cf d_en d_wr d_val d_get d_set flag]. rewrite NA.
      change (is_acc {| d_val := Some pv; d_wr := Some true; d_get := None; d_set := None; d_en := Some pe; d_cf := Some false |}) with false.
      cbn [negb andb Bool.eqb orb]. rewrite !andb_false_r, !orb_false_r. apply negb_true_iff in CO. rewrite CO, andb_false_r. cbn [orb].
      destruct (d_en d) as [e'|]; [|reflexivity]. cbn. rewrite EO. reflexivity. }
    rewrite RF. unfold apply_desc, desc_of. cbn [acc en cf wr pval pget pset]. rewrite NA.
    change (is_acc {| d_val := Some pv; d_wr := Some true; d_get := None; d_set := None; d_en := Some pe; d_cf := Some false |}) with false.
    rewrite andb_false_r. cbn [andb]. do 3 f_equal.
    + destruct (d_en d) as [e'|]; [|reflexivity]. cbn. apply eqb_prop in EO. exact EO.
    + destruct (d_cf d) as [[]|]; cbn in *; congruence.
Qed.
Lemma pdefine_data_refused : forall e d p, acc p = false -> cf p = false -> d_val d <> None -> cf_ok d = false \/ en_ok d p = false ->
  pdefine e d (Some p) = (false, Some p).
Proof.
  intros e d p A C DV H. unfold pdefine. assert (NF : no_flags d = false).
  { unfold no_flags, is_data. destruct (d_val d); [|congruence]. cbn. rewrite orb_true_r, andb_false_r. reflexivity. }
  rewrite NF. assert (RF : refused d (desc_of p) = true); [|rewrite RF; reflexivity].
  unfold refused, desc_of. rewrite A. cbn [d_cf d_en flag]. rewrite C. cbn [negb andb]. destruct H as [H | H].
  - unfold cf_ok in H. apply negb_false_iff in H. rewrite H. destruct (d_cf d); [reflexivity | discriminate].
  - unfold en_ok in H. destruct (d_en d) as [e'|]; [|discriminate]. cbn. rewrite H. cbn. rewrite orb_true_r. reflexivity.
Qed.

(** the effect of assigning a smaller length *)
Record truncated (o o' : obj) (p : prop) (m : Z) (w : bool) : Prop := {
  tr_kind : kind o' = kind o;
  tr_proto : proto o' = proto o;
  tr_ext : ext o' = ext o;
  tr_base : base o';
  tr_names : map fst (named o') = map fst (named o);
  tr_idx : forall i, look o' (KIdx i) = if i <? bound m (lst (its (arr o))) then look o (KIdx i) else None;
  tr_other : forall n, n <> length_key -> look o' (KName n) = look o (KName n);
  tr_len : exists q, look o' (KName length_key) = Some q /\ len_prop q (bound m (lst (its (arr o)))) /\ wr q = w /\ en q = en p
}.

Lemma u32_id : forall x, 0 <= x <= limit -> u32 x = x.
Proof. intros x H. apply u32_small. unfold limit in H. lia. Qed.
Lemma names_len_same : forall o p r, n_find (named o) length_key = Some p -> names_after o (KName length_key) (Some r) = map fst (named o).
Proof. intros o p r H. cbn [names_after]. rewrite H. reflexivity. Qed.

Definition new_length (d : desc) (cv : option Z) : option Z :=
  match d_val d with Some (Num n) => Some n | Some (Other _) => cv | _ => None end.

Lemma truncate_spec : forall o d cv p n m, base o -> wf_desc d ->
  look o (KName length_key) = Some p -> len_prop p n -> (forall i q, look o (KIdx i) = Some q -> i < n) ->
  new_length d cv = Some m -> 0 <= m < n -> wr p = true -> cf_ok d = true -> en_ok d p = true ->
  exists o', array_set_length o d cv = SOk (o', res_of (negb (is_some (blocker m (lst (its (arr o))))))) /\
    truncated o o' p m (match d_wr d with Some false => false | _ => true end).
Proof.
  intros o d cv p n m B W L LP IX NL M WR CO EO. unfold array_set_length.
  assert (NA : is_acc d = false).
  { destruct W as [[E1 E2] | [E1 E2]]; [unfold is_acc; rewrite E1, E2; reflexivity|]. unfold new_length in NL. rewrite E1 in NL. discriminate. }
  assert (NG : d_get d = None /\ d_set d = None).
  { unfold is_acc in NA. destruct (d_get d), (d_set d); try discriminate. auto. }
  destruct NG as [NG NS].
  unfold new_length in NL. destruct (d_val d) as [v|] eqn:DV; [|discriminate].
  assert (CV : match v with Num x => Some x | Undef => None | Other _ => cv end = Some m) by (destruct v; exact NL || discriminate). rewrite CV.
  pose proof LP as [LA LC LV LR]. unfold limit in LR.
  assert (TU : to_u32 m = SOk m).
  { unfold to_u32. change (- 2 ^ 63) with (-9223372036854775808). change (2 ^ 63) with 9223372036854775808.
    rewrite (proj2 (Z.leb_le _ _)) by lia. rewrite (proj2 (Z.ltb_lt _ _)) by lia. cbn [andb]. rewrite u32_id by (unfold limit; lia). reflexivity. }
  rewrite TU. cbn [sbind]. rewrite Z.eqb_refl. cbn [negb]. rewrite (array_len_spec o p n B L LP). cbn [sbind].
  rewrite (proj2 (Z.leb_gt n m)) by lia.
  assert (FW : flag (d_wr (desc_of p)) = true) by (unfold desc_of; rewrite LA; cbn; exact WR). rewrite FW. cbn [negb d_wr d_val d_get d_set d_en d_cf].
  set (new_wr := negb (is_some (d_wr d)) || flag (d_wr d)).
  set (nd' := if new_wr then _ else _).
  assert (ND : d_val nd' = Some (Num m) /\ is_acc nd' = false /\ cf_ok nd' = true /\ en_ok nd' p = true /\ keep (d_wr nd') true = true).
  { unfold nd', new_wr. destruct (d_wr d) as [[]|]; cbn [is_some negb flag orb d_val d_wr]; repeat split; unfold is_acc, cf_ok, en_ok; cbn [d_get d_set d_cf d_en]; rewrite ?NG, ?NS; auto. }
  destruct ND as (ND1 & ND2 & ND3 & ND4 & ND5).
  destruct (ord_define_len o nd' B) as (o1 & E1 & U1). rewrite E1, L in *. rewrite (pdefine_data (ext o) nd' p) in * by assumption.
  cbn [fst snd sbind negb] in *. rewrite ND1, ND5 in U1. cbn [keep] in U1.
  set (q := {| acc := false; wr := true; en := en p; cf := false; pval := Num m; pget := pget p; pset := pset p |}) in *.
  destruct (cut_obj o1 m (u_base _ _ _ _ U1) ltac:(lia)) as (s & E2 & T2).
  assert (LI : lst (its (arr o1)) = lst (its (arr o))).
  { (* same finite map, both sorted *)
    assert (F : forall i, t_find (lst (its (arr o1))) i = t_find (lst (its (arr o))) i).
    { intro i. apply (upd_look_other _ _ _ _ (KIdx i) U1). discriminate. }
    pose proof (inv_sorted _ (b_arr _ (u_base _ _ _ _ U1))) as S1. pose proof (inv_sorted _ (b_arr _ B)) as S2.
    revert F S1 S2. generalize (lst (its (arr o1))) (lst (its (arr o))). clear. intros t u. revert u.
    induction t as [|[i a] t IH]; intros [|[j b] u] F S1 S2.
    - reflexivity.
    - specialize (F j). cbn in F. rewrite Z.eqb_refl in F. discriminate.
    - specialize (F i). cbn in F. rewrite Z.eqb_refl in F. discriminate.
    - pose proof (sorted_cons (i, a) t) as [C1 _]. destruct (C1 S1) as [S1' A1]. pose proof (sorted_cons (j, b) u) as [C2 _]. destruct (C2 S2) as [S2' A2]. cbn [fst] in *.
      assert (i = j).
      { destruct (Z.lt_trichotomy i j) as [LT | [EQ | GT]]; [|exact EQ|]; exfalso.
        - specialize (F i). cbn in F. rewrite Z.eqb_refl in F. rewrite (proj2 (Z.eqb_neq j i)) in F by lia. rewrite find_none_lt in F; [discriminate|]. eapply Forall_impl; [|exact A2]. cbn. intros. lia.
        - specialize (F j). cbn in F. rewrite Z.eqb_refl in F. rewrite (proj2 (Z.eqb_neq i j)) in F by lia. rewrite find_none_lt in F; [discriminate|]. eapply Forall_impl; [|exact A1]. cbn. intros. lia. }
      subst j. assert (a = b) by (specialize (F i); cbn in F; rewrite Z.eqb_refl in F; congruence). subst b. f_equal. apply IH; [|exact S1' | exact S2'].
      intro k. specialize (F k). cbn in F. destruct (Z.eqb_spec i k) as [EQ | NE]; [|exact F]. subst k. rewrite !find_none_lt; auto. }
  rewrite E2. cbn [sbind fst snd]. rewrite LI in *.
  pose proof (t_base _ _ _ T2) as B2.
  assert (L2 : look (with_arr o1 s) (KName length_key) = Some q) by (rewrite (t_look _ _ _ T2); apply (upd_look_same _ _ _ _ U1)).
  assert (N1 : map fst (named (with_arr o1 s)) = map fst (named o)).
  { rewrite (t_named _ _ _ T2), (u_names _ _ _ _ U1). eapply names_len_same. exact L. }
  assert (I2 : forall i, look (with_arr o1 s) (KIdx i) = if i <? bound m (lst (its (arr o))) then look o (KIdx i) else None).
  { intro i. rewrite (t_look _ _ _ T2). destruct (i <? _); [|reflexivity]. apply (upd_look_other _ _ _ _ (KIdx i) U1). discriminate. }
  assert (O2 : forall k, k <> length_key -> look (with_arr o1 s) (KName k) = look o (KName k)).
  { intros k NK. rewrite (t_look _ _ _ T2). apply (upd_look_other _ _ _ _ (KName k) U1). congruence. }
  assert (FIN : forall o3 w, upd (with_arr o1 s) o3 (KName length_key) (Some {| acc := false; wr := w; en := en p; cf := false; pval := Num (bound m (lst (its (arr o)))); pget := pget p; pset := pset p |}) ->
           0 <= bound m (lst (its (arr o))) <= limit -> truncated o o3 p m w).
  { intros o3 w U RG. constructor.
    - rewrite (u_kind _ _ _ _ U). cbn. apply (u_kind _ _ _ _ U1).
    - rewrite (u_proto _ _ _ _ U). cbn. apply (u_proto _ _ _ _ U1).
    - rewrite (u_ext _ _ _ _ U). cbn. apply (u_ext _ _ _ _ U1).
    - apply (u_base _ _ _ _ U).
    - rewrite (u_names _ _ _ _ U). rewrite (names_len_same _ q) by exact L2. exact N1.
    - intro i. rewrite (upd_look_other _ _ _ _ (KIdx i) U) by discriminate. apply I2.
    - intros k NK. rewrite (upd_look_other _ _ _ _ (KName k) U) by congruence. apply O2. exact NK.
    - eexists. split; [apply (upd_look_same _ _ _ _ U)|]. split; [constructor; cbn; auto | cbn; auto]. }
  destruct (blocker m (lst (its (arr o)))) as [b|] eqn:BK; cbn [is_some negb res_of].
  - assert (BD : bound m (lst (its (arr o))) = b + 1) by (unfold bound; rewrite BK; reflexivity).
    destruct (blocker_some m _ b (inv_sorted _ (b_arr _ B)) BK) as (BM & (x & BF & _) & _).
    assert (BN : b < n) by (apply (IX b x); exact BF).
    assert (UB : u32 (b + 1) = b + 1) by (apply u32_id; unfold limit; lia). rewrite UB.
    destruct (ord_define_len (with_arr o1 s) (val_desc (b + 1) (if new_wr then None else Some false)) B2) as (o3 & E3 & U3). rewrite E3, L2 in *.
    rewrite (pdefine_data (ext (with_arr o1 s)) (val_desc (b + 1) (if new_wr then None else Some false)) q) in * by (reflexivity).
    cbn [fst snd sbind] in *. exists o3. split; [reflexivity|]. apply FIN; [|rewrite BD; unfold limit; lia].
    rewrite BD. cbn [val_desc d_wr d_val keep] in U3. cbn [en q pget pset] in U3. unfold q in U3; cbn [en pget pset] in U3.
    replace (match d_wr d with Some false => false | _ => true end) with (keep (if new_wr then None else Some false) true); [exact U3|].
    unfold new_wr. destruct (d_wr d) as [[]|]; reflexivity.
  - assert (BD : bound m (lst (its (arr o))) = m) by (unfold bound; rewrite BK; reflexivity).
    destruct new_wr eqn:NW.
    + exists (with_arr o1 s). split; [reflexivity|].
      replace (match d_wr d with Some false => false | _ => true end) with true by (unfold new_wr in NW; destruct (d_wr d) as [[]|]; [reflexivity | discriminate | reflexivity]).
      apply FIN; [|rewrite BD; unfold limit; lia]. rewrite BD. pose proof (upd_same (with_arr o1 s) (KName length_key) B2) as US. rewrite L2 in US. exact US.
    + destruct (ord_define_len (with_arr o1 s) {| d_val := None; d_wr := Some false; d_get := None; d_set := None; d_en := None; d_cf := None |} B2) as (o3 & E3 & U3). rewrite E3, L2 in *.
      rewrite (pdefine_data (ext (with_arr o1 s)) {| d_val := None; d_wr := Some false; d_get := None; d_set := None; d_en := None; d_cf := None |} q) in * by reflexivity.
      cbn [fst snd sbind] in *. exists o3. split; [reflexivity|].
      replace (match d_wr d with Some false => false | _ => true end) with false by (unfold new_wr in NW; destruct (d_wr d) as [[]|]; [discriminate | reflexivity | discriminate]).
      apply FIN; [|rewrite BD; unfold limit; lia]. rewrite BD. cbn [d_wr d_val keep] in U3. exact U3.
Qed.

(** everything else assigning the length can do *)
Definition same_define (o : obj) (d : desc) (o' : obj) (r : res) : Prop :=
  r = res_of (fst (pdefine (ext o) d (look o (KName length_key)))) /\
  upd o o' (KName length_key) (snd (pdefine (ext o) d (look o (KName length_key)))).
Definition with_len (d : desc) (m : Z) : desc :=
  {| d_val := Some (Num m); d_wr := d_wr d; d_get := d_get d; d_set := d_set d; d_en := d_en d; d_cf := d_cf d |}.
Lemma set_length_novalue : forall o d cv, base o -> d_val d = None ->
  exists o' r, array_set_length o d cv = SOk (o', r) /\ same_define o d o' r.
Proof.
  intros o d cv B DV. unfold array_set_length. rewrite DV. destruct (ord_define_len o d B) as (o' & E & U). rewrite E. cbn [sbind fst snd].
  eexists _, _. split; [reflexivity|]. split; [reflexivity | exact U].
Qed.
Lemma set_length_throw : forall o d cv, d_val d <> None ->
  (new_length d cv = None \/ exists m, new_length d cv = Some m /\ - 2 ^ 63 <= m < 2 ^ 63 /\ ~ 0 <= m <= limit) ->
  array_set_length o d cv = SOk (o, RThrow).
Proof.
  intros o d cv DV H. unfold array_set_length, new_length in *. destruct (d_val d) as [v|]; [|congruence].
  destruct H as [H | (m & H & R & N)].
  - destruct v; [reflexivity | discriminate | rewrite H; reflexivity].
  - assert (CV : match v with Num x => Some x | Undef => None | Other _ => cv end = Some m) by (destruct v; exact H || discriminate). rewrite CV.
    unfold to_u32. change (- 2 ^ 63) with (-9223372036854775808) in *. change (2 ^ 63) with 9223372036854775808 in *.
    rewrite (proj2 (Z.leb_le _ _)) by lia. rewrite (proj2 (Z.ltb_lt _ _)) by lia. cbn [andb sbind].
    pose proof (u32_bound m). unfold limit in N. rewrite (proj2 (Z.eqb_neq (u32 m) m)) by lia. reflexivity.
Qed.
Lemma set_length_ub : forall o d cv m, new_length d cv = Some m -> ~ - 2 ^ 63 <= m < 2 ^ 63 -> array_set_length o d cv = SUB.
Proof.
  intros o d cv m H R. unfold array_set_length, new_length in *. destruct (d_val d) as [v|]; [|discriminate].
  assert (CV : match v with Num x => Some x | Undef => None | Other _ => cv end = Some m) by (destruct v; exact H || discriminate). rewrite CV.
  unfold to_u32. change (- 2 ^ 63) with (-9223372036854775808) in *. change (2 ^ 63) with 9223372036854775808 in *.
  destruct (Z.leb_spec (-9223372036854775808) m); destruct (Z.ltb_spec m 9223372036854775808); cbn; try reflexivity. lia.
Qed.
Lemma set_length_prefix : forall o d cv p n m, base o -> look o (KName length_key) = Some p -> len_prop p n ->
  new_length d cv = Some m -> 0 <= m <= limit ->
  array_set_length o d cv =
    (if n <=? m then do x <- ord_define o (KName length_key) (with_len d m); SOk (fst x, res_of (snd x))
     else if negb (wr p) then SOk (o, RFalse) else array_set_length o d cv).
Proof.
  intros o d cv p n m B L LP H R. unfold array_set_length at 1. unfold new_length in H. destruct (d_val d) as [v|] eqn:DV; [|discriminate].
  assert (CV : match v with Num x => Some x | Undef => None | Other _ => cv end = Some m) by (destruct v; exact H || discriminate). rewrite CV.
  unfold limit in R. assert (TU : to_u32 m = SOk m).
  { unfold to_u32. change (- 2 ^ 63) with (-9223372036854775808). change (2 ^ 63) with 9223372036854775808.
    rewrite (proj2 (Z.leb_le _ _)) by lia. rewrite (proj2 (Z.ltb_lt _ _)) by lia. cbn [andb]. rewrite u32_id by (unfold limit; lia). reflexivity. }
  rewrite TU. cbn [sbind]. rewrite Z.eqb_refl. cbn [negb]. rewrite (array_len_spec o p n B L LP). cbn [sbind].
  destruct (n <=? m) eqn:NM; [reflexivity|].
  assert (FW : flag (d_wr (desc_of p)) = wr p) by (unfold desc_of; rewrite (l_acc _ _ LP); reflexivity). rewrite FW.
  destruct (wr p) eqn:WP; cbn [negb]; [|reflexivity].
  unfold array_set_length. rewrite DV, CV, TU. cbn [sbind]. rewrite Z.eqb_refl. cbn [negb]. rewrite (array_len_spec o p n B L LP). cbn [sbind]. rewrite NM, FW. cbn [negb]. reflexivity.
Qed.
Lemma with_len_wf : forall d m, wf_desc d -> d_val d <> None -> wf_desc (with_len d m).
Proof. intros d m [H | [H _]] V; [left; exact H | congruence]. Qed.

Lemma set_length_refused : forall o d cv p n m, base o -> look o (KName length_key) = Some p -> len_prop p n ->
  new_length d cv = Some m -> 0 <= m < n -> wr p = true -> cf_ok d = false \/ en_ok d p = false ->
  array_set_length o d cv = SOk (o, RFalse).
Proof.
  intros o d cv p n m B L LP NL R WP H.
  assert (X : forall w, pdefine (ext o) {| d_val := Some (Num m); d_wr := w; d_get := d_get d; d_set := d_set d; d_en := d_en d; d_cf := d_cf d |} (Some p) = (false, Some p)).
  { intro w. apply pdefine_data_refused; [apply LP | apply LP | discriminate | exact H]. }
  pose proof (l_range _ _ LP) as LR. unfold array_set_length, limit, new_length in *. destruct (d_val d) as [v|] eqn:DV; [|discriminate].
  assert (CV : match v with Num x => Some x | Undef => None | Other _ => cv end = Some m) by (destruct v; exact NL || discriminate). rewrite CV.
  assert (TU : to_u32 m = SOk m).
  { unfold to_u32. change (- 2 ^ 63) with (-9223372036854775808). change (2 ^ 63) with 9223372036854775808.
    rewrite (proj2 (Z.leb_le _ _)) by lia. rewrite (proj2 (Z.ltb_lt _ _)) by lia. cbn [andb]. rewrite u32_id by (unfold limit; lia). reflexivity. }
  rewrite TU. cbn [sbind]. rewrite Z.eqb_refl. cbn [negb]. rewrite (array_len_spec o p n B L LP). cbn [sbind]. rewrite (proj2 (Z.leb_gt n m)) by lia.
  assert (FW : flag (d_wr (desc_of p)) = true) by (unfold desc_of; rewrite (l_acc _ _ LP); exact WP). rewrite FW. cbn [negb d_wr d_val d_get d_set d_en d_cf].
  set (nw := negb (is_some (d_wr d)) || flag (d_wr d)).
  set (nd := if nw then _ else _). assert (PD : pdefine (ext o) nd (Some p) = (false, Some p)) by (unfold nd; destruct nw; apply X).
  unfold ord_define, get_own. rewrite (o_lookup_spec o (KName length_key) B Logic.I), L. cbn [sbind option_map validate_and_apply].
  unfold pdefine in PD. destruct (no_flags nd); [congruence|]. destruct (refused nd (desc_of p)); [reflexivity | congruence].
Qed.

Lemma set_length_cases : forall o d cv p n, base o -> wf_desc d ->
  look o (KName length_key) = Some p -> len_prop p n -> (forall i q, look o (KIdx i) = Some q -> i < n) ->
  (array_set_length o d cv = SUB /\ exists m, new_length d cv = Some m /\ ~ - 2 ^ 63 <= m < 2 ^ 63) \/
  exists o' r, array_set_length o d cv = SOk (o', r) /\
   ( o' = o
  \/ (d_val d = None /\ same_define o d o' r)
  \/ (exists m, new_length d cv = Some m /\ n <= m <= limit /\ same_define o (with_len d m) o' r)
  \/ (exists m w, new_length d cv = Some m /\ 0 <= m < n /\ wr p = true /\ truncated o o' p m w)).
Proof.
  intros o d cv p n B W L LP IX. destruct (d_val d) as [v|] eqn:DV.
  2: { right. destruct (set_length_novalue o d cv B DV) as (o' & r & E & S). exists o', r. split; [exact E|]. right. left. auto. }
  destruct (new_length d cv) as [m|] eqn:NL.
  2: { right. exists o, RThrow. split; [apply set_length_throw; [congruence | left; exact NL] | left; reflexivity]. }
  assert (D1 : (- 2 ^ 63 <= m < 2 ^ 63) \/ ~ (- 2 ^ 63 <= m < 2 ^ 63)).
  { destruct (Z_le_dec (- 2 ^ 63) m); [destruct (Z_lt_dec m (2 ^ 63)); [left; split; assumption|]|]; right; intros [H1 H2]; contradiction. }
  destruct D1 as [R | NR].
  2: { left. split; [eapply set_length_ub; eassumption|]. exists m. auto. }
  right. assert (D2 : 0 <= m <= limit \/ ~ 0 <= m <= limit) by (destruct (Z_le_dec 0 m), (Z_le_dec m limit); tauto).
  destruct D2 as [R2 | NR2].
  2: { exists o, RThrow. split; [apply set_length_throw; [congruence|]; right; exists m; auto | left; reflexivity]. }
  destruct (Z_le_dec n m) as [GE | LT].
  - rewrite (set_length_prefix o d cv p n m B L LP NL R2). rewrite (proj2 (Z.leb_le n m)) by exact GE.
    destruct (ord_define_len o (with_len d m) B) as (o' & E & U). rewrite E. cbn [sbind fst snd]. eexists _, _. split; [reflexivity|].
    right. right. left. exists m. split; [reflexivity|]. split; [lia|]. split; [reflexivity | exact U].
  - destruct (wr p) eqn:WP.
    2: { rewrite (set_length_prefix o d cv p n m B L LP NL R2). rewrite (proj2 (Z.leb_gt n m)) by lia. rewrite WP. cbn [negb]. exists o, RFalse. auto. }
    destruct (cf_ok d) eqn:CO; [destruct (en_ok d p) eqn:EO|].
    + destruct (truncate_spec o d cv p n m B W L LP IX NL ltac:(lia) WP CO EO) as (o' & E & T). eexists _, _. split; [exact E|]. right. right. right.
      eexists _, _. split; [reflexivity|]. split; [lia|]. split; [reflexivity | exact T].
    + exists o, RFalse. split; [eapply set_length_refused; eauto; lia | left; reflexivity].
    + exists o, RFalse. split; [eapply set_length_refused; eauto; lia | left; reflexivity].
Qed.

(** ** all operations on one object *)
Definition has (o : obj) (k : key) : bool := is_some (look o k).
Record ordered_upd (o o' : obj) (k : option key) : Prop := {
  ou_new : forall j, look o j = None -> look o' j <> None -> k = Some j;
  ou_names : map fst (named o') = filter (fun n => has o' (KName n)) (map fst (named o)) ++
    match k with Some (KName n) => if has o (KName n) then [] else if has o' (KName n) then [n] else [] | _ => [] end
}.
Record good (o o' : obj) (k : option key) : Prop := {
  g_inv : OInv o';
  g_kind : kind o' = kind o;
  g_proto : proto o' = proto o;
  g_ext : ext o' = ext o;
  g_evolves : evolves o o';
  g_order : ordered_upd o o' k
}.

Lemma filter_all : forall {A} (f : A -> bool) l, (forall x, In x l -> f x = true) -> filter f l = l.
Proof. intros A f l H. induction l as [|a l IH]; [reflexivity|]. cbn. rewrite H by (left; reflexivity). f_equal. apply IH. intros x Hx. apply H. right. exact Hx. Qed.
Lemma has_named : forall o n, In n (map fst (named o)) <-> has o (KName n) = true.
Proof. intros o n. rewrite <- n_find_in. unfold has, look. destruct (n_find (named o) n); cbn; split; congruence. Qed.
Lemma ordered_same_names : forall o o' k, map fst (named o') = map fst (named o) ->
  (forall j, look o j = None -> look o' j <> None -> k = Some j) -> ordered_upd o o' k.
Proof.
  intros o o' k N J. constructor; [exact J|]. rewrite filter_all.
  - rewrite N. assert (E : forall n, has o' (KName n) = has o (KName n)).
    { intro n. apply eq_true_iff_eq. rewrite <- !has_named, N. reflexivity. }
    destruct k as [[i|n]|]; rewrite ?app_nil_r; try reflexivity. rewrite E. destruct (has o (KName n)); rewrite app_nil_r; reflexivity.
  - intros n Hn. rewrite <- N in Hn. apply has_named. exact Hn.
Qed.
Lemma upd_ordered : forall o o' k r, upd o o' k r -> ordered_upd o o' (Some k).
Proof.
  intros o o' k r U. assert (J : forall j, look o j = None -> look o' j <> None -> Some k = Some j).
  { intros j H1 H2. rewrite (u_look _ _ _ _ U) in H2. destruct (key_eqb_spec j k) as [-> | N]; [reflexivity | contradiction]. }
  pose proof (u_names _ _ _ _ U) as N. destruct k as [i|n]; [apply ordered_same_names; assumption|]. cbn [names_after] in N.
  destruct r as [p|].
  - unfold is_some in N. destruct (n_find (named o) n) eqn:F; [apply ordered_same_names; assumption|].
    constructor; [exact J|]. rewrite filter_all.
    + unfold has. cbn [look]. rewrite F. cbn [is_some]. change (n_find (named o') n) with (look o' (KName n)). rewrite (upd_look_same _ _ _ _ U). exact N.
    + intros m Hm. unfold has. rewrite (u_look _ _ _ _ U). destruct (key_eqb (KName m) (KName n)); [reflexivity|]. apply has_named in Hm. exact Hm.
  - constructor; [exact J|]. rewrite N. assert (HN : has o' (KName n) = false) by (unfold has; rewrite (upd_look_same _ _ _ _ U); reflexivity).
    rewrite HN. replace (if has o (KName n) then [] else []) with (@nil nkey) by (destruct (has o (KName n)); reflexivity). rewrite app_nil_r.
    assert (G : forall l, (forall m, In m l -> In m (map fst (named o))) -> filter (fun m => negb (nkey_eqb m n)) l = filter (fun m => has o' (KName m)) l).
    { intros l. induction l as [|m l IH]; intro H; [reflexivity|]. cbn [filter].
      assert (E : has o' (KName m) = negb (nkey_eqb m n)).
      { unfold has. rewrite (u_look _ _ _ _ U). cbn [key_eqb]. destruct (nkey_eqb m n); [reflexivity|]. cbn. apply has_named. apply H. left. reflexivity. }
      rewrite E, IH by (intros x Hx; apply H; right; exact Hx). reflexivity. }
    apply G. auto.
Qed.
Lemma pdefine_false : forall e d c, fst (pdefine e d c) = false -> snd (pdefine e d c) = c.
Proof. intros e d [p|] H; cbn in *; [destruct (no_flags d); [reflexivity|]; destruct (refused d (desc_of p)); [reflexivity | discriminate] | destruct e; [discriminate | reflexivity]]. Qed.

Lemma good_refl : forall o k, OInv o -> good o o k.
Proof. intros o k I. constructor; auto; [apply evolves_refl | apply ordered_same_names; [reflexivity | intros j H1 H2; contradiction]]. Qed.

Lemma upd_arr_ok_name : forall o o' n r, upd o o' (KName n) r -> n <> length_key -> arr_ok o -> arr_ok o'.
Proof.
  intros o o' n r U NE (p & m & L & LP & IX). exists p, m. split; [rewrite (upd_look_other _ _ _ _ _ U); [exact L | congruence]|]. split; [exact LP|].
  intros i q H. rewrite (upd_look_other _ _ _ _ _ U) in H by discriminate. eapply IX. exact H.
Qed.
Lemma ord_good : forall o k d o' r, OInv o -> wf_desc d -> upd o o' k r -> r = snd (pdefine (ext o) d (look o k)) ->
  (kind o = Array -> arr_ok o') -> good o o' (Some k).
Proof.
  intros o k d o' r I W U -> A. constructor.
  - constructor; [apply (u_base _ _ _ _ U)| |].
    + rewrite (u_kind _ _ _ _ U). exact A.
    + rewrite (u_kind _ _ _ _ U), (u_proto _ _ _ _ U). apply I.
  - apply (u_kind _ _ _ _ U).
  - apply (u_proto _ _ _ _ U).
  - apply (u_ext _ _ _ _ U).
  - eapply upd_define_evolves; [apply I | exact W | exact U].
  - eapply upd_ordered. exact U.
Qed.

(** defining the length keeps the length above the indices when the new one is *)
Lemma len_upd_ok : forall o d o' p n, base o -> wf_desc d -> look o (KName length_key) = Some p -> len_prop p n ->
  (forall i q, look o (KIdx i) = Some q -> i < n) ->
  (forall v, d_val d = Some v -> exists m, v = Num m /\ n <= m <= limit) ->
  upd o o' (KName length_key) (snd (pdefine (ext o) d (look o (KName length_key)))) -> arr_ok o'.
Proof.
  intros o d o' p n B W L LP IX V U. rewrite L in U. destruct (len_pdefine (ext o) d p n W LP) as (q & Q1 & Q2).
  { intros v Hv. destruct (V v Hv) as (m & -> & R). exists m. split; [reflexivity|]. pose proof (l_range _ _ LP). lia. }
  rewrite Q1 in U. eexists q, _. split; [apply (upd_look_same _ _ _ _ U)|]. split; [exact Q2|].
  intros i x H. rewrite (upd_look_other _ _ _ _ _ U) in H by discriminate. specialize (IX i x H).
  destruct (d_val d) as [v|] eqn:DV; [|exact IX]. destruct (V v eq_refl) as (m & -> & R). destruct (fst _); lia.
Qed.

Lemma set_length_good : forall o d cv, OInv o -> kind o = Array -> wf_desc d ->
  (array_set_length o d cv = SUB /\ exists m, new_length d cv = Some m /\ ~ - 2 ^ 63 <= m < 2 ^ 63) \/
  exists o' r, array_set_length o d cv = SOk (o', r) /\ good o o' (Some (KName length_key)).
Proof.
  intros o d cv I K W. destruct (oi_arr o I K) as (p & n & L & LP & IX). pose proof (oi_base o I) as B.
  destruct (set_length_cases o d cv p n B W L LP IX) as [SU | (o' & r & E & C)]; [left; exact SU|]. right. exists o', r. split; [exact E|].
  destruct C as [-> | [(DV & RE & U) | [(m & NL & MR & RE & U) | (m & w & NL & MR & WP & T)]]].
  - apply good_refl. exact I.
  - eapply ord_good; [exact I | exact W | exact U | reflexivity|]. intros _. eapply len_upd_ok; try eassumption. intros v Hv. congruence.
  - assert (W' : wf_desc (with_len d m)) by (apply with_len_wf; [exact W | unfold new_length in NL; destruct (d_val d); [discriminate | discriminate]]).
    eapply ord_good; [exact I | exact W' | exact U | reflexivity|]. intros _. eapply len_upd_ok; try eassumption. intros v Hv. injection Hv as <-. exists m. auto.
  - pose proof (inv_sorted _ (b_arr _ B)) as S. destruct (tr_len _ _ _ _ _ T) as (q & Q1 & Q2 & Q3 & Q4).
    constructor.
    + constructor; [apply T | |].
      * intros _. exists q, (bound m (lst (its (arr o)))). split; [exact Q1|]. split; [exact Q2|]. intros i x H. rewrite (tr_idx _ _ _ _ _ T) in H.
        destruct (Z.ltb_spec i (bound m (lst (its (arr o))))) as [LT | GE]; [exact LT | discriminate].
      * rewrite (tr_kind _ _ _ _ _ T), K. discriminate.
    + apply T.
    + apply T.
    + apply T.
    + constructor.
      * apply T.
      * rewrite (tr_ext _ _ _ _ _ T). auto.
      * intros _. apply T.
      * intros [i|k] HX HN; [rewrite (tr_idx _ _ _ _ _ T), HN; destruct (i <? _); reflexivity|].
        destruct (nkey_eqb_spec k length_key) as [-> | NE]; [congruence|]. rewrite (tr_other _ _ _ _ _ T) by exact NE. exact HN.
      * intros [i|k] x HL HC.
        -- rewrite (tr_idx _ _ _ _ _ T). rewrite (proj2 (Z.ltb_lt i _)) by (eapply cut_keeps; [exact S | exact HL | exact HC]). exists x. split; [exact HL | apply stable_refl].
        -- destruct (nkey_eqb_spec k length_key) as [-> | NE].
           ++ rewrite L in HL. injection HL as <-. exists q. split; [exact Q1|]. unfold view. destruct LP as [A1 A2 A3 A4], Q2 as [B1 B2 B3 B4]. rewrite A1, B1, Q4, B2.
              unfold stable. rewrite A2, WP. intros _. eexists _, _. reflexivity.
           ++ rewrite (tr_other _ _ _ _ _ T) by exact NE. exists x. split; [exact HL | apply stable_refl].
    + apply ordered_same_names; [apply T|]. intros [i|k] H1 H2.
      * rewrite (tr_idx _ _ _ _ _ T), H1 in H2. destruct (i <? _); contradiction.
      * destruct (nkey_eqb_spec k length_key) as [-> | NE]; [reflexivity|]. rewrite (tr_other _ _ _ _ _ T) in H2 by exact NE. contradiction.
Qed.

Lemma set_item_good : forall o i d, OInv o -> kind o = Array -> valid_index i -> wf_desc d ->
  (array_set_item o i d = SUB /\ crash o (KIdx i) /\ look o (KIdx i) = None /\ ext o = true) \/
  exists o' r, array_set_item o i d = SOk (o', r) /\ good o o' (Some (KIdx i)).
Proof.
  intros o i d I K V W. destruct (oi_arr o I K) as (p & n & L & LP & IX). pose proof (oi_base o I) as B.
  unfold array_set_item. rewrite (array_len_spec o p n B L LP). cbn [sbind].
  assert (FW : flag (d_wr (desc_of p)) = wr p) by (unfold desc_of; rewrite (l_acc _ _ LP); reflexivity). rewrite FW.
  destruct ((n <=? i) && negb (wr p)) eqn:NW; [right; exists o, RFalse; split; [reflexivity | apply good_refl; exact I]|].
  destruct (ord_define_spec o (KIdx i) d B V) as [(E & C & N & X) | (o1 & E1 & U1)]; [left; rewrite E; auto|]. right. rewrite E1. cbn [sbind fst snd].
  assert (L1 : look o1 (KName length_key) = Some p) by (rewrite (upd_look_other _ _ _ _ _ U1); [exact L | discriminate]).
  assert (OK1 : fst (pdefine (ext o) d (look o (KIdx i))) = false \/ i < n -> arr_ok o1).
  { intro H. exists p, n. split; [exact L1|]. split; [exact LP|]. intros j q HJ. rewrite (u_look _ _ _ _ U1) in HJ.
    destruct (key_eqb_spec (KIdx j) (KIdx i)) as [EQ | NE]; [|eapply IX; exact HJ]. injection EQ as ->. destruct H as [H | H]; [|exact H].
    rewrite (pdefine_false _ _ _ H) in HJ. eapply IX. exact HJ. }
  destruct (fst (pdefine (ext o) d (look o (KIdx i)))) eqn:FP; cbn [negb].
  2: { exists o1, RFalse. split; [reflexivity|]. eapply ord_good; [exact I | exact W | exact U1 | reflexivity | auto]. }
  destruct (Z.leb_spec n i) as [GE | LT].
  2: { exists o1, RTrue. split; [reflexivity|]. eapply ord_good; [exact I | exact W | exact U1 | reflexivity | auto]. }
  cbn [andb] in NW. apply negb_false_iff in NW.
  set (ld := {| d_val := Some (Num (i + 1)); d_wr := _; d_get := _; d_set := _; d_en := _; d_cf := _ |}).
  destruct (ord_define_len o1 ld (u_base _ _ _ _ U1)) as (o2 & E2 & U2). rewrite E2. cbn [sbind fst snd]. exists o2, RTrue. split; [reflexivity|].
  rewrite L1 in U2. unfold valid_index in V.
  assert (PD : pdefine (ext o1) ld (Some p) = (true, Some {| acc := false; wr := true; en := en p; cf := false; pval := Num (i + 1); pget := pget p; pset := pset p |})).
  { rewrite pdefine_data; [| apply LP | apply LP | exact NW | | |]; unfold ld, desc_of; rewrite (l_acc _ _ LP); cbn.
    - rewrite NW. reflexivity.
    - reflexivity.
    - unfold cf_ok. cbn. rewrite (l_cf _ _ LP). reflexivity.
    - unfold en_ok. cbn. apply eqb_reflx. }
  rewrite PD in U2. cbn [snd] in U2.
  assert (LK : forall j, look o2 j = if key_eqb j (KName length_key) then Some {| acc := false; wr := true; en := en p; cf := false; pval := Num (i + 1); pget := pget p; pset := pset p |}
             else if key_eqb j (KIdx i) then snd (pdefine (ext o) d (look o (KIdx i))) else look o j).
  { intro j. rewrite (u_look _ _ _ _ U2). destruct (key_eqb j (KName length_key)); [reflexivity | apply (u_look _ _ _ _ U1)]. }
  assert (PR : proto o2 = proto o) by (rewrite (u_proto _ _ _ _ U2); apply U1).
  assert (KI : kind o2 = kind o) by (rewrite (u_kind _ _ _ _ U2); apply U1).
  assert (XE : ext o2 = ext o) by (rewrite (u_ext _ _ _ _ U2); apply U1).
  constructor; auto.
  - constructor; [apply (u_base _ _ _ _ U2)| |rewrite KI, K; discriminate].
    intros _. eexists _, (i + 1). split; [apply (upd_look_same _ _ _ _ U2)|]. split; [constructor; cbn; auto; unfold limit; lia|].
    intros j q. rewrite LK. cbn [key_eqb]. destruct (Z.eqb_spec j i) as [-> | NE]; [intros; lia|]. intro H. specialize (IX j q H). lia.
  - constructor.
    + exact KI.
    + congruence.
    + congruence.
    + intros j HX HN. rewrite LK. destruct (key_eqb_spec j (KName length_key)) as [-> | NE]; [congruence|]. destruct (key_eqb_spec j (KIdx i)) as [-> | NE2]; [|exact HN].
      rewrite HN in FP. cbn in FP. rewrite HX in FP. discriminate.
    + intros j q HL HC. rewrite LK. destruct (key_eqb_spec j (KName length_key)) as [-> | NE].
      * rewrite L in HL. injection HL as <-. eexists. split; [reflexivity|]. unfold view. cbn. rewrite (l_acc _ _ LP). unfold stable. rewrite NW. intros _. eexists _, _. reflexivity.
      * destruct (key_eqb_spec j (KIdx i)) as [-> | NE2]; [|exists q; split; [exact HL | apply stable_refl]].
        rewrite HL. apply pdefine_stable; [exact W | apply (b_props o B _ _ HL)].
  - apply ordered_same_names.
    + rewrite (u_names _ _ _ _ U2). cbn [look] in L1. rewrite (names_len_same _ _ _ L1). apply (u_names _ _ _ _ U1).
    + intros j HN HP. rewrite LK in HP. destruct (key_eqb_spec j (KName length_key)) as [-> | NE]; [congruence|]. destruct (key_eqb_spec j (KIdx i)) as [-> | NE2]; [reflexivity | contradiction].
Qed.

(** what makes a define undefined *)
Definition undefined_define (o : obj) (k : key) (d : desc) (cv : option Z) : Prop :=
  (crash o k /\ look o k = None /\ ext o = true) \/
  (kind o = Array /\ k = KName length_key /\ exists m, new_length d cv = Some m /\ ~ - 2 ^ 63 <= m < 2 ^ 63).
Lemma o_define_good : forall o k d cv, OInv o -> valid_key k -> wf_desc d ->
  (o_define o k d cv = SUB /\ undefined_define o k d cv) \/
  exists o' r, o_define o k d cv = SOk (o', r) /\ good o o' (Some k).
Proof.
  intros o k d cv I V W. unfold o_define. pose proof (oi_base o I) as B.
  assert (ORD : (kind o = Array -> exists n, k = KName n /\ n <> length_key) ->
    ((do x <- ord_define o k d; SOk (fst x, res_of (snd x))) = SUB /\ undefined_define o k d cv) \/
    exists o' r, (do x <- ord_define o k d; SOk (fst x, res_of (snd x))) = SOk (o', r) /\ good o o' (Some k)).
  { intro HK. destruct (ord_define_spec o k d B V) as [(E & C) | (o1 & E1 & U1)]; [left; rewrite E; split; [reflexivity | left; exact C]|].
    right. rewrite E1. cbn [sbind fst snd]. eexists _, _. split; [reflexivity|]. eapply ord_good; [exact I | exact W | exact U1 | reflexivity|].
    intro KA. destruct (HK KA) as (n & -> & NE). eapply upd_arr_ok_name; [exact U1 | exact NE | apply I; exact KA]. }
  destruct (kind o) eqn:K.
  - apply ORD. discriminate.
  - destruct k as [i|n].
    + destruct (set_item_good o i d I K V W) as [(E & C) | H]; [left; split; [exact E | left; exact C] | right; exact H].
    + destruct (nkey_eqb_spec n length_key) as [-> | NE]; [|apply ORD; intros _; exists n; auto].
      destruct (set_length_good o d cv I K W) as [(E & C) | H]; [left; split; [exact E | right; auto] | right; exact H].
  - right. exists o, RExt. split; [reflexivity | apply good_refl; exact I].
Qed.
Lemma o_delete_good : forall o k, OInv o -> valid_key k ->
  exists o' r, o_delete o k = SOk (o', r) /\ good o o' None /\
    (kind o <> Exotic -> r = RFalse -> o' = o) /\ (r = RTrue -> look o' k = None /\ forall j, j <> k -> look o' j = look o j) /\
    (kind o <> Exotic -> r = res_of (match look o k with Some p => cf p | None => true end)).
Proof.
  intros o k I V. unfold o_delete. pose proof (oi_base o I) as B.
  assert (ORD : kind o <> Exotic -> exists o' r, (do c <- get_own o k; match c with None => SOk (o, RTrue) | Some d => if flag (d_cf d) then do o' <- o_remove o k; SOk (o', RTrue) else SOk (o, RFalse) end) = SOk (o', r) /\ good o o' None /\
    (kind o <> Exotic -> r = RFalse -> o' = o) /\ (r = RTrue -> look o' k = None /\ forall j, j <> k -> look o' j = look o j) /\
    (kind o <> Exotic -> r = res_of (match look o k with Some p => cf p | None => true end))).
  { intro NX. unfold get_own. rewrite (o_lookup_spec o k B V). cbn [sbind]. destruct (look o k) as [p|] eqn:L; cbn [option_map].
    2: { exists o, RTrue. split; [reflexivity|]. split; [apply good_refl; exact I|]. split; [congruence|]. split; [intros _; split; [exact L | reflexivity] | reflexivity]. }
    assert (CF : flag (d_cf (desc_of p)) = cf p) by (unfold desc_of; destruct (acc p); reflexivity). rewrite CF.
    destruct (cf p) eqn:C.
    2: { exists o, RFalse. split; [reflexivity|]. split; [apply good_refl; exact I|]. split; [reflexivity|]. split; [discriminate | reflexivity]. }
    destruct (o_remove_spec o k B V ltac:(congruence)) as (o' & E & U). rewrite E. cbn [sbind]. exists o', RTrue. split; [reflexivity|].
    split; [|split; [discriminate | split; [intros _; split; [apply (upd_look_same _ _ _ _ U) | intros j NE; apply (upd_look_other _ _ _ _ _ U NE)] | reflexivity]]].
    constructor.
    - constructor; [apply (u_base _ _ _ _ U)| |].
      + rewrite (u_kind _ _ _ _ U). intro KA. destruct (oi_arr o I KA) as (q & n & LQ & LP & IX). exists q, n.
        split; [rewrite (upd_look_other _ _ _ _ _ U); [exact LQ|]; intro H; subst k; rewrite L in LQ; injection LQ as ->; rewrite (l_cf _ _ LP) in C; discriminate|].
        split; [exact LP|]. intros i x H. rewrite (u_look _ _ _ _ U) in H. destruct (key_eqb (KIdx i) k); [discriminate | eapply IX; exact H].
      + rewrite (u_kind _ _ _ _ U), (u_proto _ _ _ _ U). apply I.
    - apply U.
    - apply U.
    - apply U.
    - eapply upd_delete_evolves; eassumption.
    - pose proof (upd_ordered _ _ _ _ U) as [_ N]. constructor.
      + intros j H1 H2. rewrite (u_look _ _ _ _ U) in H2. destruct (key_eqb j k); contradiction.
      + rewrite N. f_equal. destruct k as [i|n]; [reflexivity|]. unfold has at 1. rewrite L. reflexivity. }
  destruct (kind o) eqn:K; [apply ORD; discriminate | apply ORD; discriminate|].
  exists o, RExt. split; [reflexivity|]. split; [apply good_refl; exact I|]. split; [congruence|]. split; [discriminate | congruence].
Qed.
