(** Proofs about the mapped arguments object. *)
From Coq Require Import List ZArith Bool Lia.
Import ListNotations.
From Verif Require Import StoreModel ObjModel ObjSpec ObjProofs ArgsModel ArgsSpec.
Local Open Scope Z_scope.

Lemma keyb k j : BoolSpec (k = j) (k <> j) (key_eqb k j).
Proof.
  destruct k as [x|[x|x]], j as [y|[y|y]]; cbn; try (constructor; congruence);
    destruct (Z.eqb_spec x y); constructor; congruence.
Qed.
Lemma set_at_same {A} (f : key -> A) k x : set_at f k x k = x.
Proof. unfold set_at. destruct (keyb k k); congruence. Qed.
Lemma set_at_other {A} (f : key -> A) k x j : j <> k -> set_at f k x j = f j.
Proof. intros N. unfold set_at. destruct (keyb k j); congruence. Qed.

(** *** Links *)
Lemma clear_length l : forall i, length (clear_at l i) = length l.
Proof. induction l; destruct i; cbn; auto. Qed.
Lemma clear_nth l : forall i j, nth j (clear_at l i) None = if Nat.eqb j i then None else nth j l None.
Proof.
  induction l as [|x l IH]; intros i j; [destruct (Nat.eqb j i); destruct j; reflexivity|].
  destruct i, j; cbn; auto.
Qed.
Lemma mapped_inv a k i n : mapped a k = Some (i, n) ->
  k = KIdx (Z.of_nat i) /\ (i < length (names a))%nat /\ nth i (names a) None = Some n.
Proof.
  unfold mapped. destruct k as [x|x]; [|discriminate].
  destruct ((0 <=? x) && (x <? Z.of_nat (length (names a)))) eqn:E; cbn [negb]; [|discriminate].
  apply andb_true_iff in E as (A & B). destruct (nth _ _ _) eqn:N; [|discriminate].
  intros H. injection H as <- <-. rewrite Z2Nat.id by lia. repeat split; auto. lia.
Qed.
Lemma mapped_intro a i n : (i < length (names a))%nat -> nth i (names a) None = Some n ->
  mapped a (KIdx (Z.of_nat i)) = Some (i, n).
Proof.
  intros L N. unfold mapped. rewrite Nat2Z.id, N.
  destruct (Z.leb_spec 0 (Z.of_nat i)); [|lia]. destruct (Z.ltb_spec (Z.of_nat i) (Z.of_nat (length (names a)))); [|lia].
  reflexivity.
Qed.
Lemma mapped_names a b k : names a = names b -> mapped a k = mapped b k.
Proof. intros E. unfold mapped. rewrite E. reflexivity. Qed.
Lemma mapped_del a k i n j : mapped a k = Some (i, n) ->
  mapped (a_del a i) j = if key_eqb k j then None else mapped a j.
Proof.
  intros M. apply mapped_inv in M as (-> & L & N). unfold mapped, a_del. cbn [names].
  rewrite clear_length. destruct j as [x|x]; [|reflexivity]. cbn [key_eqb].
  rewrite clear_nth. destruct (Z.eqb_spec (Z.of_nat i) x) as [<-|Ne].
  - rewrite Nat2Z.id, Nat.eqb_refl. destruct (negb _); reflexivity.
  - destruct ((0 <=? x) && (x <? Z.of_nat (length (names a)))) eqn:E; [|reflexivity]. cbn [negb].
    apply andb_true_iff in E as (A & B). destruct (Nat.eqb_spec (Z.to_nat x) i); [lia|reflexivity].
Qed.

Record Inv (a : args) : Prop := {
  i_wfp : forall k p, props a k = Some p -> wfp p;
  i_map : forall k i n, mapped a k = Some (i, n) -> exists p, props a k = Some p /\ acc p = false /\ wr p = true;
  i_inj : forall j k i i' n, mapped a j = Some (i, n) -> mapped a k = Some (i', n) -> j = k }.

Definition put_val (p : prop) (v : val) : prop :=
  {| acc := acc p; wr := wr p; en := en p; cf := cf p; pval := v; pget := pget p; pset := pset p |}.
(** the property with its present value *)
Definition eff (a : args) (k : key) : option prop :=
  match props a k with
  | None => None
  | Some p => match mapped a k with Some (_, n) => Some (put_val p (env a n)) | None => Some p end
  end.

Lemma vis_eff a k : Inv a -> vis (show a) k = option_map view (eff a k).
Proof.
  intros I. unfold show, eff. cbn [vis]. destruct (props a k) as [p|] eqn:P; [|reflexivity].
  destruct (mapped a k) as [(i, n)|] eqn:M; cbn [option_map]; [|destruct (view p); reflexivity].
  destruct (i_map a I _ _ _ M) as (p' & P' & A & W). assert (p' = p) by congruence. subst p'.
  unfold view. cbn [acc put_val]. rewrite A. reflexivity.
Qed.
Lemma own_eff a k : Inv a -> own a k = option_map desc_of (eff a k).
Proof.
  intros I. unfold own, eff. destruct (props a k) as [p|] eqn:P; [|reflexivity].
  destruct (mapped a k) as [(i, n)|] eqn:M; cbn [option_map]; [|reflexivity].
  destruct (i_map a I _ _ _ M) as (p' & P' & A & W). assert (p' = p) by congruence. subst p'.
  unfold desc_of, with_val. cbn [acc put_val]. rewrite A. reflexivity.
Qed.
Lemma eff_wfp a k p : Inv a -> eff a k = Some p -> wfp p.
Proof.
  intros I. unfold eff. destruct (props a k) as [q|] eqn:P; [|discriminate].
  pose proof (i_wfp a I _ _ P) as W. destruct (mapped a k) as [(i, n)|]; intros E; injection E as <-; exact W.
Qed.
Lemma full_view p : full (view p) = desc_of p.
Proof. unfold full, view, desc_of. destruct (acc p); reflexivity. Qed.
Lemma show_ok a : Inv a -> linked_ok (show a).
Proof.
  intros I. split.
  - intros k n L. cbn [link show] in L. destruct (mapped a k) as [(i, n')|] eqn:M; [|discriminate]. injection L as ->.
    destruct (i_map a I _ _ _ M) as (p & P & A & W). exists (en p), (cf p). rewrite (vis_eff a k I).
    unfold eff. rewrite P, M. cbn [option_map]. unfold view. cbn [acc put_val wr en cf pval]. rewrite A, W. reflexivity.
  - intros j k n Lj Lk. cbn [link show] in *. destruct (mapped a j) as [(i, ?)|] eqn:Mj; [|discriminate].
    destruct (mapped a k) as [(i', ?)|] eqn:Mk; [|discriminate]. cbn in *. injection Lj as ->. injection Lk as ->.
    eapply (i_inj a I); eauto.
Qed.

(** *** define *)
Lemma ordinary_define_spec a k d : Inv a ->
  ordinary_define a k d =
  match eff a k, props a k with
  | Some q, Some p =>
      if no_flags d then (a, true)
      else if refused d (desc_of q) then (a, false)
      else (mkA (names a) (set_at (props a) k (Some (apply_desc p d (desc_of q)))) (aext a) (env a), true)
  | _, _ =>
      if aext a then (mkA (names a) (set_at (props a) k (Some (new_prop d))) (aext a) (env a), true)
      else (a, false)
  end.
Proof.
  intros I. unfold ordinary_define. rewrite (own_eff a k I). unfold eff.
  destruct (props a k) as [p|]; [|reflexivity]. destruct (mapped a k) as [(i, n)|]; reflexivity.
Qed.

(** A new property function at [k] and changed links at [k] only. *)
Lemma replaced_intro a k b after :
  Inv a ->
  (forall j, j <> k -> props b j = props a j) ->
  (forall j, j <> k -> mapped b j = mapped a j) ->
  aext b = aext a ->
  (forall n, (forall i, mapped a k <> Some (i, n)) -> env b n = env a n) ->
  (forall i n, mapped a k = Some (i, n) -> env b n = match after with Some (AData v _ _ _) => v | _ => env a n end) ->
  mapped b k = (match after with Some (AData _ true _ _) => mapped a k | _ => None end) ->
  vis (show b) k = after ->
  replaced (show a) k after (show b).
Proof.
  intros I P M E N1 N2 Mk V. split; [exact V|]. split; [|split; [|split; [|split; [exact E|split]]]].
  - intros j Nj. cbn [vis show]. rewrite (P j Nj), (M j Nj).
    destruct (props a j) as [p|]; [|reflexivity]. destruct (mapped a j) as [(i, n)|] eqn:Mj; [|reflexivity].
    destruct (view p) as [v w e c|]; [|reflexivity]. rewrite N1; [reflexivity|].
    intros i' Mk'. apply Nj. eapply (i_inj a I); eauto.
  - cbn [link show]. rewrite Mk. destruct after as [[v [] e c|]|]; reflexivity.
  - intros j Nj. cbn [link show]. rewrite (M j Nj). reflexivity.
  - intros p L. cbn [par show link] in *. apply N1. intros i Mk'. rewrite Mk' in L. apply L. reflexivity.
  - intros p L. cbn [par show link] in *. destruct (mapped a k) as [(i, n)|] eqn:Mk'; [|discriminate].
    injection L as ->. eapply N2. reflexivity.
Qed.

Lemma is_some_none {A} (x : option A) : is_some x = false -> x = None.
Proof. destruct x; [discriminate|reflexivity]. Qed.

(** the property of a successful definition: data and writable, or not *)
Lemma define_spec a k d : Inv a -> wf_desc d ->
  let '(b, r) := define a k d in
  Inv b /\ r = fst (pdefine (aext a) d (eff a k)) /\
  replaced (show a) k (option_map view (snd (pdefine (aext a) d (eff a k)))) (show b).
Proof.
  intros I W. unfold define. destruct (mapped a k) as [(i, n)|] eqn:M.
  - (* linked *)
    destruct (i_map a I _ _ _ M) as (p & P & A & Wr).
    assert (Ef : eff a k = Some (put_val p (env a n))) by (unfold eff; rewrite P, M; reflexivity).
    set (q := put_val p (env a n)) in *.
    assert (Dq : desc_of q = {| d_val := Some (env a n); d_wr := Some true; d_get := None; d_set := None; d_en := Some (en p); d_cf := Some (cf p) |}).
    { unfold desc_of. cbn [acc q put_val]. rewrite A. cbn. rewrite Wr. reflexivity. }
    set (d' := if _ && _ && _ && _ then with_val d (a_get a n) else d).
    assert (Hd : is_acc d' = is_acc d /\ is_data d' = is_data d /\ no_flags d' = no_flags d /\ d_wr d' = d_wr d /\
                 d_en d' = d_en d /\ d_cf d' = d_cf d /\ d_get d' = d_get d /\ d_set d' = d_set d).
    { unfold d'. destruct (is_data d && _ && _ && _) eqn:E; [|repeat split].
      rewrite !andb_true_iff in E. destruct E as (((E1 & E2) & E3) & E4).
      assert (is_acc (with_val d (a_get a n)) = is_acc d) by reflexivity.
      assert (is_data (with_val d (a_get a n)) = is_data d) by (unfold is_data; cbn; rewrite E3; reflexivity).
      repeat split; auto. unfold no_flags. rewrite H, H0. reflexivity. }
    destruct Hd as (Ha & Hdt & Hn & Hw & He & Hc & Hg & Hs).
    assert (Hr : refused d' (desc_of q) = refused d (desc_of q)).
    { rewrite Dq. unfold refused, is_generic. rewrite Ha, Hdt, He, Hc, Hg, Hs, Hw. cbn [flag d_cf d_en d_wr d_get d_set d_val].
      destruct (is_acc d); [reflexivity|]. cbn [negb andb]. reflexivity. }
    rewrite (ordinary_define_spec a k d' I), Ef, P, Hn, Hr. cbn [pdefine].
    destruct (no_flags d) eqn:Nf.
    + (* nothing given *)
      assert (is_acc d = false /\ d_val d = None /\ d_wr d = None) as (Ac & Vn & Wn).
      { unfold no_flags in Nf. rewrite !andb_true_iff, !negb_true_iff in Nf. destruct Nf as (((N1 & N2) & _) & _).
        unfold is_data in N2. apply orb_false_iff in N2 as (N2 & N3). split; [exact N1|].
        split; apply is_some_none; assumption. }
      rewrite Ac, Vn, Wn. cbn [is_some andb fst snd option_map]. split; [exact I|]. split; [reflexivity|].
      apply replaced_intro; auto.
      * intros i' n' Mk. assert (n' = n) by congruence. subst. unfold view. cbn [acc q put_val]. rewrite A. reflexivity.
      * rewrite M. unfold view. cbn [acc q put_val wr]. rewrite A, Wr. reflexivity.
      * rewrite (vis_eff a k I), Ef. reflexivity.
    + destruct (refused d (desc_of q)) eqn:Rf; cbn [fst snd option_map].
      * split; [exact I|]. split; [reflexivity|]. apply replaced_intro; auto.
        -- intros i' n' Mk. assert (n' = n) by congruence. subst. unfold view. cbn [acc q put_val]. rewrite A. reflexivity.
        -- rewrite M. unfold view. cbn [acc q put_val wr]. rewrite A, Wr. reflexivity.
        -- rewrite (vis_eff a k I), Ef. reflexivity.
      * assert (IsD : is_acc (desc_of q) = false /\ is_data (desc_of q) = true) by (rewrite Dq; split; reflexivity).
        destruct IsD as (Iq & Jq).
        set (p1 := apply_desc p d' (desc_of q)).
        assert (Wp1 : wfp p1).
        { unfold p1, apply_desc. rewrite Iq, Jq, Ha, Hdt, andb_false_r, andb_true_r. unfold wfp.
          destruct (is_acc d); cbn; [auto|]. rewrite A. cbn. discriminate. }
        destruct (is_acc d) eqn:Ac.
        -- (* becomes an accessor *)
           assert (Vp : view (apply_desc q d (desc_of q)) = view p1 /\ exists g s e c, view p1 = AAcc g s e c).
           { unfold p1, apply_desc. rewrite Iq, Jq, Ha, Hdt, Ac, andb_false_r. cbn [andb].
             unfold view. cbn [acc pget pset en cf]. rewrite Hg, Hs, He, Hc. cbn [q put_val en cf]. split; [reflexivity|]. eauto. }
           destruct Vp as (Vp & g & s & e & c & Va). rewrite Vp.
           set (b := a_del (mkA (names a) (set_at (props a) k (Some p1)) (aext a) (env a)) i).
           assert (Mb : forall j, mapped b j = if key_eqb k j then None else mapped a j).
           { intros j. unfold b. rewrite (mapped_del _ k i n); [|rewrite <- M; apply mapped_names; reflexivity].
             destruct (key_eqb k j); [reflexivity|]. apply mapped_names; reflexivity. }
           assert (Mbk : mapped b k = None) by (rewrite Mb; destruct (keyb k k); congruence).
           assert (Mbj : forall j, j <> k -> mapped b j = mapped a j) by (intros j Nj; rewrite Mb; destruct (keyb k j); congruence).
           split; [|split; [reflexivity|]].
           ++ split.
              ** intros j pj. cbn [props b a_del]. destruct (keyb k j) as [<-|Nj].
                 --- rewrite set_at_same. intros E. injection E as <-. exact Wp1.
                 --- rewrite set_at_other by congruence. apply (i_wfp a I).
              ** intros j i' n' Mj. destruct (keyb k j) as [<-|Nj]; [congruence|]. rewrite Mbj in Mj by congruence.
                 cbn [props b a_del]. rewrite set_at_other by congruence. eapply (i_map a I); eauto.
              ** intros j l i1 i2 n' Mj Ml. destruct (keyb k j) as [<-|Nj]; [congruence|]. destruct (keyb k l) as [<-|Nl]; [congruence|].
                 rewrite Mbj in Mj, Ml by congruence. eapply (i_inj a I); eauto.
           ++ apply replaced_intro; auto.
              ** intros j Nj. cbn [props b a_del]. apply set_at_other. exact Nj.
              ** rewrite Va. reflexivity.
              ** rewrite Va. exact Mbk.
              ** cbn [vis show]. rewrite Mbk. cbn [props b a_del]. rewrite set_at_same.
                 destruct (view p1); reflexivity.
        -- (* stays a data property *)
           assert (Vp : view p1 = AData (keep (d_val d') (pval p)) (keep (d_wr d) true) (keep (d_en d) (en p)) (keep (d_cf d) (cf p))).
           { unfold p1, apply_desc. rewrite Iq, Jq, Ha, Hdt, andb_false_r. cbn [andb]. rewrite A. unfold view. cbn [acc pval wr en cf].
             rewrite Hw, He, Hc, Wr. reflexivity. }
           assert (Vq : view (apply_desc q d (desc_of q)) =
             AData (keep (d_val d) (env a n)) (keep (d_wr d) true) (keep (d_en d) (en p)) (keep (d_cf d) (cf p))).
           { unfold apply_desc. rewrite Iq, Jq, Ac, andb_false_r. cbn [andb q put_val acc]. rewrite A. unfold view. cbn [acc pval wr en cf q put_val].
             rewrite Wr. reflexivity. }
           assert (Dp1 : acc p1 = false /\ wr p1 = keep (d_wr d) true).
           { unfold view in Vp. destruct (acc p1); [discriminate|]. injection Vp as E1 E2 E3 E4. auto. }
           destruct Dp1 as (Ap1 & Wrp1).
           set (b0 := mkA (names a) (set_at (props a) k (Some p1)) (aext a) (env a)).
           set (b1 := match d_val d with Some v => a_set b0 n v | None => b0 end).
           assert (Nb1 : names b1 = names a /\ props b1 = set_at (props a) k (Some p1) /\ aext b1 = aext a /\
             env b1 n = keep (d_val d) (env a n) /\ forall m, m <> n -> env b1 m = env a m).
           { unfold b1. destruct (d_val d) as [v|]; cbn; repeat split; auto.
             - unfold set_env. rewrite Z.eqb_refl. reflexivity.
             - intros m Nm. unfold set_env. destruct (Z.eqb_spec n m); congruence. }
           destruct Nb1 as (N1 & N2 & N3 & N4 & N5).
           assert (Mb1 : forall j, mapped b1 j = mapped a j) by (intros; apply mapped_names; exact N1).
           rewrite Vq. destruct (is_some (d_wr d) && negb (flag (d_wr d))) eqn:Lock.
           ++ (* the link ends *)
              assert (Wd : d_wr d = Some false).
              { destruct (d_wr d) as [[]|]; cbn in Lock; congruence. }
              assert (Vd : keep (d_val d') (pval p) = keep (d_val d) (env a n)).
              { unfold d'. rewrite Wd. unfold is_data. rewrite Wd. cbn [is_some flag orb negb andb].
                destruct (d_val d) eqn:Dv; cbn [is_some negb andb]; [rewrite Dv|]; reflexivity. }
              set (b := a_del b1 i).
              assert (Mb : forall j, mapped b j = if key_eqb k j then None else mapped a j).
              { intros j. unfold b. rewrite (mapped_del b1 k i n) by (rewrite Mb1; exact M). rewrite Mb1. reflexivity. }
              assert (Mbk : mapped b k = None) by (rewrite Mb; destruct (keyb k k); congruence).
              assert (Mbj : forall j, j <> k -> mapped b j = mapped a j) by (intros j Nj; rewrite Mb; destruct (keyb k j); congruence).
              assert (Pb : props b = set_at (props a) k (Some p1)) by exact N2.
              split; [|split; [reflexivity|]].
              ** split.
                 --- intros j pj. rewrite Pb. destruct (keyb k j) as [<-|Nj].
                     +++ rewrite set_at_same. intros E. injection E as <-. exact Wp1.
                     +++ rewrite set_at_other by congruence. apply (i_wfp a I).
                 --- intros j i' n' Mj. destruct (keyb k j) as [<-|Nj]; [congruence|]. rewrite Mbj in Mj by congruence.
                     rewrite Pb, set_at_other by congruence. eapply (i_map a I); eauto.
                 --- intros j l i1 i2 n' Mj Ml. destruct (keyb k j) as [<-|Nj]; [congruence|]. destruct (keyb k l) as [<-|Nl]; [congruence|].
                     rewrite Mbj in Mj, Ml by congruence. eapply (i_inj a I); eauto.
              ** apply replaced_intro; auto.
                 --- intros j Nj. rewrite Pb. apply set_at_other. exact Nj.
                 --- intros m Hm. apply N5. intros ->. apply (Hm i). exact M.
                 --- intros i' n' Mk. assert (n' = n) by congruence. subst n'. exact N4.
                 --- rewrite Wd. exact Mbk.
                 --- cbn [vis show]. rewrite Mbk, Pb, set_at_same. rewrite Vp, Vd. reflexivity.
           ++ (* the link lasts *)
              assert (Wt : keep (d_wr d) true = true) by (destruct (d_wr d) as [[]|]; cbn in Lock; auto).
              split; [|split; [reflexivity|]].
              ** split.
                 --- intros j pj. rewrite N2. destruct (keyb k j) as [<-|Nj].
                     +++ rewrite set_at_same. intros E. injection E as <-. exact Wp1.
                     +++ rewrite set_at_other by congruence. apply (i_wfp a I).
                 --- intros j i' n' Mj. rewrite Mb1 in Mj. rewrite N2. destruct (keyb k j) as [<-|Nj].
                     +++ rewrite set_at_same. exists p1. split; [reflexivity|]. split; [exact Ap1|]. congruence.
                     +++ rewrite set_at_other by congruence. eapply (i_map a I); eauto.
                 --- intros j l i1 i2 n' Mj Ml. rewrite Mb1 in Mj, Ml. eapply (i_inj a I); eauto.
              ** apply replaced_intro; auto.
                 --- intros j Nj. rewrite N2. apply set_at_other. exact Nj.
                 --- intros m Hm. apply N5. intros ->. apply (Hm i). exact M.
                 --- intros i' n' Mk. assert (n' = n) by congruence. subst n'. exact N4.
                 --- rewrite Wt. apply Mb1.
                 --- cbn [vis show]. rewrite Mb1, M, N2, set_at_same, Vp, N4. reflexivity.
  - (* not linked *)
    assert (Ef : eff a k = props a k) by (unfold eff; rewrite M; destruct (props a k); reflexivity).
    assert (G : forall p1, wfp p1 ->
      let b := mkA (names a) (set_at (props a) k (Some p1)) (aext a) (env a) in
      Inv b /\ replaced (show a) k (Some (view p1)) (show b)).
    { intros p1 Wp1 b. assert (Mb : forall j, mapped b j = mapped a j) by (intros; apply mapped_names; reflexivity).
      split.
      - split.
        + intros j pj. cbn [props b]. destruct (keyb k j) as [<-|Nj].
          * rewrite set_at_same. intros E. injection E as <-. exact Wp1.
          * rewrite set_at_other by congruence. apply (i_wfp a I).
        + intros j i' n' Mj. rewrite Mb in Mj. cbn [props b]. destruct (keyb k j) as [<-|Nj]; [congruence|].
          rewrite set_at_other by congruence. eapply (i_map a I); eauto.
        + intros j l i1 i2 n' Mj Ml. rewrite Mb in Mj, Ml. eapply (i_inj a I); eauto.
      - apply replaced_intro; auto.
        + intros j Nj. apply set_at_other. exact Nj.
        + intros i' n' Mk. congruence.
        + rewrite Mb, M. destruct (view p1) as [v [] e c|]; reflexivity.
        + cbn [vis show]. rewrite Mb, M. cbn [props b]. rewrite set_at_same. destruct (view p1); reflexivity. }
    assert (Same : replaced (show a) k (option_map view (props a k)) (show a)).
    { apply replaced_intro; auto.
      - intros i' n' Mk. congruence.
      - rewrite M. destruct (option_map view (props a k)) as [[v [] e c|]|]; reflexivity.
      - rewrite (vis_eff a k I), Ef. reflexivity. }
    rewrite (ordinary_define_spec a k d I), Ef. destruct (props a k) as [p|] eqn:P; cbn [pdefine].
    + destruct (no_flags d); cbn [fst snd option_map] in *; [split; [exact I|]; split; [reflexivity|exact Same]|].
      destruct (refused d (desc_of p)); cbn [fst snd option_map] in *; [split; [exact I|]; split; [reflexivity|exact Same]|].
      destruct (G (apply_desc p d (desc_of p))) as (G1 & G2); [apply apply_wfp; eapply (i_wfp a I); eauto|].
      split; [exact G1|]. split; [reflexivity|exact G2].
    + destruct (aext a); cbn [fst snd option_map] in *; [|split; [exact I|]; split; [reflexivity|exact Same]].
      destruct (G (new_prop d) (new_wfp d)) as (G1 & G2). split; [exact G1|]. split; [reflexivity|exact G2].
Qed.

(** *** Values put through the link *)
Lemma set_env_same f p x : set_env f p x p = x.
Proof. unfold set_env. rewrite Z.eqb_refl. reflexivity. Qed.
Lemma set_env_other f p x q : q <> p -> set_env f p x q = f q.
Proof. intros N. unfold set_env. destruct (Z.eqb_spec p q); congruence. Qed.
Lemma inv_env a n v : Inv a -> Inv (a_set a n v).
Proof.
  intros I. assert (Mb : forall j, mapped (a_set a n v) j = mapped a j) by (intros; apply mapped_names; reflexivity).
  split.
  - intros k p. exact (i_wfp a I k p).
  - intros k i m. rewrite Mb. exact (i_map a I k i m).
  - intros j k i i' m. rewrite !Mb. exact (i_inj a I j k i i' m).
Qed.
Lemma write_step a p v : Inv a -> written (show a) p v (show (a_set a p v)).
Proof.
  intros I. assert (Mb : forall j, mapped (a_set a p v) j = mapped a j) by (intros; apply mapped_names; reflexivity).
  split; [apply set_env_same|]. split; [intros q N; apply set_env_other; exact N|].
  split; [intros k; cbn [link show]; rewrite Mb; reflexivity|]. split; [reflexivity|]. split.
  - intros k L. cbn [vis link show] in *. rewrite Mb. cbn [props a_set]. destruct (props a k) as [q|]; [|reflexivity].
    destruct (mapped a k) as [(i, n)|]; [|reflexivity]. destruct (view q); [|reflexivity].
    cbn [env a_set]. rewrite set_env_other; [reflexivity|]. intros ->. apply L. reflexivity.
  - intros k L. cbn [vis link show] in *. rewrite Mb. cbn [props a_set].
    destruct (mapped a k) as [(i, n)|] eqn:M; [|discriminate]. injection L as ->.
    destruct (i_map a I _ _ _ M) as (q & P & A & W). rewrite P. unfold view. rewrite A.
    cbn [env a_set]. rewrite set_env_same. reflexivity.
Qed.

Lemma unch a : unchanged (show a) (show a).
Proof. repeat split. Qed.

Lemma define_ecma a k d : Inv a -> wf_desc d ->
  let '(b, r) := define a k d in
  exists after, Inv b /\ ecma_define (sext (show a)) d (vis (show a) k) r after /\ replaced (show a) k after (show b).
Proof.
  intros I W. pose proof (define_spec a k d I W) as H. destruct (define a k d) as (b, r). destruct H as (Ib & -> & R).
  exists (option_map view (snd (pdefine (aext a) d (eff a k)))). split; [exact Ib|]. split; [|exact R].
  rewrite (vis_eff a k I). apply pdefine_ecma; [exact W|]. intros p E. exact (eff_wfp a k p I E).
Qed.

Lemma pdefine_value e v q : acc q = false -> wr q = true ->
  fst (pdefine e (value_only v) (Some q)) = true /\
  option_map view (snd (pdefine e (value_only v) (Some q))) = Some (AData v true (en q) (cf q)).
Proof.
  intros A W. cbn [pdefine]. unfold no_flags. cbn [is_acc is_data value_only d_val d_wr d_get d_set d_en d_cf is_some orb negb andb].
  assert (R : refused (value_only v) (desc_of q) = false).
  { unfold desc_of. rewrite A, W. unfold refused, is_generic. cbn. destruct (cf q); reflexivity. }
  rewrite R. split; [reflexivity|]. cbn [snd option_map]. unfold apply_desc, desc_of. rewrite !A. unfold view. cbn.
  rewrite W. reflexivity.
Qed.

Lemma written_replaced s p v s1 k e c s2 : linked_ok s -> link s k = Some p -> written s p v s1 ->
  replaced s1 k (Some (AData v true e c)) s2 -> replaced s k (Some (AData v true e c)) s2.
Proof.
  intros (_ & Inj) L (W1 & W2 & W3 & W4 & W5 & W6) (R1 & R2 & R3 & R4 & R5 & R6 & R7).
  split; [exact R1|]. split; [|split; [|split; [|split; [|split]]]].
  - intros j N. rewrite (R2 j N). apply W5. intros Lj. apply N. eapply Inj; eauto.
  - rewrite R3. apply W3.
  - intros j N. rewrite (R4 j N). apply W3.
  - congruence.
  - intros q Nq. rewrite R6; [apply W2; congruence|]. rewrite W3. exact Nq.
  - intros q Lq. apply R7. rewrite W3. exact Lq.
Qed.

Lemma eff_data a k p : Inv a -> eff a k = Some p -> acc p = false -> wr p = false -> mapped a k = None.
Proof.
  intros I E A W. destruct (mapped a k) as [(i, n)|] eqn:M; [|reflexivity]. exfalso.
  destruct (i_map a I _ _ _ M) as (q & P & Aq & Wq). unfold eff in E. rewrite P, M in E. injection E as <-. cbn in W. congruence.
Qed.
Lemma eff_acc a k p : Inv a -> eff a k = Some p -> acc p = true -> mapped a k = None.
Proof.
  intros I E A. destruct (mapped a k) as [(i, n)|] eqn:M; [|reflexivity]. exfalso.
  destruct (i_map a I _ _ _ M) as (q & P & Aq & Wq). unfold eff in E. rewrite P, M in E. injection E as <-. cbn in A. congruence.
Qed.
Lemma eff_none a k : Inv a -> eff a k = None -> mapped a k = None.
Proof.
  intros I E. destruct (mapped a k) as [(i, n)|] eqn:M; [|reflexivity]. exfalso.
  destruct (i_map a I _ _ _ M) as (q & P & Aq & Wq). unfold eff in E. rewrite P, M in E. discriminate.
Qed.

Lemma all_true_wf v : wf_desc (all_true v).
Proof. left. split; reflexivity. Qed.
Lemma value_only_wf v : wf_desc (value_only v).
Proof. left. split; reflexivity. Qed.

Lemma desc_acc p : acc p = true -> is_data (desc_of p) = false /\ is_acc (desc_of p) = true /\
  or_undef (d_get (desc_of p)) = pget p /\ or_undef (d_set (desc_of p)) = pset p.
Proof. intros A. unfold desc_of. rewrite A. repeat split. Qed.
Lemma desc_data p : acc p = false -> is_data (desc_of p) = true /\ is_acc (desc_of p) = false /\
  flag (d_wr (desc_of p)) = wr p /\ or_undef (d_val (desc_of p)) = pval p.
Proof. intros A. unfold desc_of. rewrite A. repeat split. Qed.
Lemma desc_cf p : flag (d_cf (desc_of p)) = cf p.
Proof. unfold desc_of. destruct (acc p); reflexivity. Qed.

Lemma set_step a k v self root : Inv a ->
  let '(b, x) := set a k v self root in Inv b /\ sstep (show a) (Set_ k v self root) (show b) x.
Proof.
  intros I. unfold set. destruct (eff a k) as [q|] eqn:E.
  - pose proof (vis_eff a k I) as V. rewrite E in V. cbn [option_map] in V.
    destruct (acc q) eqn:A.
    + (* accessor: not linked *)
      pose proof (eff_acc a k q I E A) as M. rewrite M.
      replace (if self then a else a) with a by (destruct self; reflexivity).
      rewrite (own_eff a k I), E. cbn [option_map].
      destruct (desc_acc q A) as (D1 & D2 & D3 & D4). rewrite D1, D4.
      unfold view in V. rewrite A in V. pose proof (s_set_acc (show a) k v self root (show a) _ _ _ _ (unch a) V) as S.
      destruct (pset q); split; try exact I; exact S.
    + destruct (wr q) eqn:W.
      * (* writable *)
        destruct self.
        -- destruct (mapped a k) as [(i, n)|] eqn:M.
           ++ set (a1 := a_set a n v). pose proof (inv_env a n v I) as I1. fold a1 in I1.
              assert (M1 : mapped a1 k = Some (i, n)) by (rewrite <- M; apply mapped_names; reflexivity).
              destruct (i_map a1 I1 _ _ _ M1) as (p & P & Ap & Wp).
              assert (E1 : eff a1 k = Some (put_val p v)).
              { unfold eff. rewrite P, M1. unfold a1. cbn [env a_set]. rewrite set_env_same. reflexivity. }
              rewrite (own_eff a1 k I1), E1. cbn [option_map].
              destruct (desc_data (put_val p v) Ap) as (D1 & D2 & D3 & D4). rewrite D1, D2, D3. cbn [put_val wr]. rewrite Wp. cbn [negb].
              pose proof (define_spec a1 k (value_only v) I1 (value_only_wf v)) as D. rewrite E1 in D.
              destruct (pdefine_value (aext a1) v (put_val p v) Ap Wp) as (F1 & F2). rewrite F1, F2 in D.
              destruct (define a1 k (value_only v)) as (b, r). destruct D as (Ib & -> & R). split; [exact Ib|].
              assert (Epq : en p = en q /\ cf p = cf q).
              { unfold eff in E. change (props a1 k) with (props a k) in P. rewrite P, M in E. injection E as <-. split; reflexivity. }
              destruct Epq as (Ee & Ec).
              eapply s_set_value.
              ** unfold view in V. rewrite A, W in V. exact V.
              ** rewrite <- Ee, <- Ec. eapply written_replaced; [apply show_ok; exact I| |apply (write_step a n v I)|exact R].
                 cbn [link show]. rewrite M. reflexivity.
           ++ rewrite (own_eff a k I), E. cbn [option_map].
              destruct (desc_data q A) as (D1 & D2 & D3 & D4). rewrite D1, D2, D3, W. cbn [negb].
              pose proof (define_spec a k (value_only v) I (value_only_wf v)) as D. rewrite E in D.
              destruct (pdefine_value (aext a) v q A W) as (F1 & F2). rewrite F1, F2 in D.
              destruct (define a k (value_only v)) as (b, r). destruct D as (Ib & -> & R). split; [exact Ib|].
              eapply s_set_value; [|exact R]. unfold view in V. rewrite A, W in V. exact V.
        -- rewrite (own_eff a k I), E. cbn [option_map].
           destruct (desc_data q A) as (D1 & D2 & D3 & D4). rewrite D1, D3, W. cbn [negb].
           split; [exact I|]. unfold view in V. rewrite A, W in V. eapply s_set_other; [apply unch|exact V].
      * pose proof (eff_data a k q I E A W) as M. rewrite M.
        replace (if self then a else a) with a by (destruct self; reflexivity).
        rewrite (own_eff a k I), E. cbn [option_map].
        destruct (desc_data q A) as (D1 & D2 & D3 & D4). rewrite D1, D3, W. cbn [negb].
        split; [exact I|]. unfold view in V. rewrite A, W in V. eapply s_set_locked; [apply unch|exact V].
  - pose proof (vis_eff a k I) as V. rewrite E in V. cbn [option_map] in V.
    pose proof (eff_none a k I E) as M. rewrite M.
    replace (if self then a else a) with a by (destruct self; reflexivity).
    rewrite (own_eff a k I), E. cbn [option_map]. destruct root.
    + destruct self.
      * pose proof (define_ecma a k (all_true v) I (all_true_wf v)) as D.
        destruct (define a k (all_true v)) as (b, r). destruct D as (after & Ib & D & R). split; [exact Ib|].
        rewrite V in D. eapply s_set_new; eauto.
      * split; [exact I|]. apply s_set_other_new; [apply unch|exact V].
    + split; [exact I|]. apply s_set_proto; [apply unch|exact V].
Qed.

Lemma delete_step a k : Inv a ->
  let '(b, r) := delete a k in Inv b /\ sstep (show a) (Delete k) (show b) (ABool r).
Proof.
  intros I. unfold delete. rewrite (own_eff a k I). pose proof (vis_eff a k I) as V.
  destruct (eff a k) as [q|] eqn:E; cbn [option_map] in *.
  - rewrite desc_cf. destruct (cf q) eqn:C.
    + set (b0 := mkA (names a) (set_at (props a) k None) (aext a) (env a)).
      assert (M0 : forall j, mapped b0 j = mapped a j) by (intros; apply mapped_names; reflexivity).
      set (b := match mapped a k with Some (i, _) => a_del b0 i | None => b0 end).
      assert (Eb : (match mapped a k with Some (i, _) => (a_del b0 i, true) | None => (b0, true) end) = (b, true)).
      { unfold b. destruct (mapped a k) as [(i, n)|]; reflexivity. }
      rewrite Eb.
      assert (Pb : props b = set_at (props a) k None /\ aext b = aext a /\ env b = env a).
      { unfold b. destruct (mapped a k) as [(i, n)|]; repeat split. }
      destruct Pb as (Pb & Xb & Vb).
      assert (Mb : forall j, mapped b j = if key_eqb k j then None else mapped a j).
      { intros j. unfold b. destruct (mapped a k) as [(i, n)|] eqn:M.
        - rewrite (mapped_del b0 k i n) by (rewrite M0; exact M). rewrite M0. reflexivity.
        - rewrite M0. destruct (keyb k j) as [<-|]; [exact M|reflexivity]. }
      assert (Mbk : mapped b k = None) by (rewrite Mb; destruct (keyb k k); congruence).
      assert (Mbj : forall j, j <> k -> mapped b j = mapped a j) by (intros j Nj; rewrite Mb; destruct (keyb k j); congruence).
      split.
      * split.
        -- intros j pj. rewrite Pb. destruct (keyb k j) as [<-|Nj]; [rewrite set_at_same; discriminate|].
           rewrite set_at_other by congruence. apply (i_wfp a I).
        -- intros j i' n' Mj. destruct (keyb k j) as [<-|Nj]; [congruence|]. rewrite Mbj in Mj by congruence.
           rewrite Pb, set_at_other by congruence. eapply (i_map a I); eauto.
        -- intros j l i1 i2 n' Mj Ml. destruct (keyb k j) as [<-|Nj]; [congruence|]. destruct (keyb k l) as [<-|Nl]; [congruence|].
           rewrite Mbj in Mj, Ml by congruence. eapply (i_inj a I); eauto.
      * eapply s_delete; [exact V| |].
        -- unfold view. destruct (acc q); cbn; congruence.
        -- apply replaced_intro; auto.
           ++ intros j Nj. rewrite Pb. apply set_at_other. exact Nj.
           ++ intros m _. rewrite Vb. reflexivity.
           ++ intros i n _. rewrite Vb. reflexivity.
           ++ cbn [vis show]. rewrite Pb, set_at_same. reflexivity.
    + split; [exact I|]. eapply s_delete_no; [apply unch|exact V|]. unfold view. destruct (acc q); cbn; congruence.
  - rewrite (eff_none a k I E). split; [exact I|]. apply s_delete_none; [apply unch|exact V].
Qed.

Lemma get_step a k : Inv a -> sstep (show a) (Get k) (show a) (get a k).
Proof.
  intros I. unfold get. pose proof (vis_eff a k I) as V. destruct (mapped a k) as [(i, n)|] eqn:M.
  - destruct (i_map a I _ _ _ M) as (p & P & A & W). unfold eff in V. rewrite P, M in V. cbn [option_map] in V.
    unfold view in V. cbn [acc put_val pval] in V. rewrite A in V. eapply s_get_data; [apply unch|exact V].
  - rewrite (own_eff a k I). destruct (eff a k) as [q|] eqn:E; cbn [option_map] in *.
    + destruct (acc q) eqn:A.
      * destruct (desc_acc q A) as (D1 & D2 & D3 & D4). rewrite D1, D3. unfold view in V. rewrite A in V.
        pose proof (s_get_acc (show a) k (show a) _ _ _ _ (unch a) V) as S. destruct (pget q); exact S.
      * destruct (desc_data q A) as (D1 & D2 & D3 & D4). rewrite D1, D4. unfold view in V. rewrite A in V.
        eapply s_get_data; [apply unch|exact V].
    + apply s_get_none; [apply unch|exact V].
Qed.

Lemma step_ok a o : Inv a -> op_fits o ->
  let '(b, x) := step a o in Inv b /\ sstep (show a) o (show b) x.
Proof.
  intros I F. destruct o as [k|k|k d|k v self root|k| |p|p v]; cbn [step].
  - split; [exact I|].
    assert (O : own a k = option_map full (vis (show a) k)).
    { rewrite (own_eff a k I), (vis_eff a k I). destruct (eff a k); cbn [option_map]; [rewrite full_view|]; reflexivity. }
    rewrite O. apply s_own. apply unch.
  - split; [exact I|]. apply get_step. exact I.
  - pose proof (define_ecma a k d I F) as D. destruct (define a k d) as (b, r). destruct D as (after & Ib & D & R).
    split; [exact Ib|]. eapply s_define; eauto.
  - apply set_step. exact I.
  - pose proof (delete_step a k I) as D. destruct (delete a k) as (b, r). exact D.
  - assert (Mb : forall j, mapped (mkA (names a) (props a) false (env a)) j = mapped a j) by (intros; apply mapped_names; reflexivity).
    split.
    + split.
      * intros k p. exact (i_wfp a I k p).
      * intros k i m. rewrite Mb. exact (i_map a I k i m).
      * intros j k i i' m. rewrite !Mb. exact (i_inj a I j k i i' m).
    + apply s_noext; reflexivity.
  - split; [exact I|]. apply s_read. apply unch.
  - split; [apply inv_env; exact I|]. apply s_write. apply write_step. exact I.
Qed.

Lemma run_ok ops : forall a, Inv a -> Forall op_fits ops -> sruns (show a) ops (run a ops).
Proof.
  induction ops as [|o ops IH]; intros a I F; cbn [run]; [constructor|].
  pose proof (step_ok a o I (Forall_inv F)) as S. destruct (step a o) as (b, x). destruct S as (Ib & S).
  econstructor; [apply show_ok; exact I|exact S|]. apply IH; [exact Ib|exact (Forall_inv_tail F)].
Qed.

(** *** The new object *)
Lemma param_index_ge ps p : forall c i, param_index ps p c = Some i -> (c <= i)%nat.
Proof.
  induction ps as [|x r IH]; intros c i; cbn; [discriminate|].
  destruct (param_index r p (S c)) as [j|] eqn:E; [intros H; injection H as <-; apply IH in E; lia|].
  destruct (x =? p); [intros H; injection H as <-; lia|discriminate].
Qed.
Lemma param_index_none ps p : forall c, param_index ps p c = None -> forall j, nth_error ps j <> Some p.
Proof.
  induction ps as [|x r IH]; intros c H j; cbn in *; [destruct j; discriminate|].
  destruct (param_index r p (S c)) as [i|] eqn:E; [discriminate|]. destruct (Z.eqb_spec x p) as [->|N]; [discriminate|].
  destruct j; cbn; [congruence|]. eapply IH; eauto.
Qed.
Lemma param_index_some ps p : forall c i, param_index ps p c = Some (c + i)%nat <->
  nth_error ps i = Some p /\ forall j, (i < j)%nat -> nth_error ps j <> Some p.
Proof.
  induction ps as [|x r IH]; intros c i; cbn [param_index].
  - split; [discriminate|]. intros (H & _). destruct i; discriminate.
  - destruct (param_index r p (S c)) as [k|] eqn:E.
    + pose proof (param_index_ge _ _ _ _ E) as G. destruct i as [|i].
      * split; [intros H; injection H; lia|]. intros (_ & H).
        replace k with (S c + (k - S c))%nat in E by lia. apply IH in E as (E & _).
        exfalso. apply (H (S (k - S c))); [lia|exact E].
      * rewrite <- E. replace (c + S i)%nat with (S c + i)%nat by lia. rewrite IH. cbn [nth_error].
        split; intros (H1 & H2); (split; [exact H1|]).
        -- intros [|j] L; [lia|]. apply H2. lia.
        -- intros j L. apply (H2 (S j)). lia.
    + pose proof (param_index_none _ _ _ E) as N. destruct (Z.eqb_spec x p) as [->|Nx].
      * split.
        -- intros H. injection H as H. assert (i = 0%nat) by lia. subst i. split; [reflexivity|].
           intros [|j] L; [lia|]. apply N.
        -- intros (H1 & H2). destruct i as [|i]; [f_equal; lia|]. exfalso. apply (N i). exact H1.
      * split; [discriminate|]. intros (H1 & _). destruct i as [|i]; cbn in H1; [congruence|]. exfalso. eapply N; eauto.
Qed.

Lemma put_length l p : forall i, length (put_name l i p) = length l.
Proof. induction l; destruct i; cbn; auto. Qed.
Lemma put_nth l p : forall i j, (i < length l)%nat -> nth j (put_name l i p) None = if Nat.eqb j i then Some p else nth j l None.
Proof.
  induction l as [|x l IH]; intros i j L; [cbn in L; lia|]. destruct i, j; cbn; auto. apply IH. cbn in L. lia.
Qed.

Definition put_one (params : list Z) (argc : nat) (l : list (option Z)) (p : Z) : list (option Z) :=
  match param_index params p 0 with
  | Some i => if Nat.ltb i argc then put_name l i p else l
  | None => l
  end.
Lemma links_index ps argc i p : links_to ps argc i p <-> param_index ps p 0 = Some i /\ (i < argc)%nat.
Proof. unfold links_to. pose proof (param_index_some ps p 0 i) as H. cbn [Nat.add] in H. rewrite H. tauto. Qed.

Lemma fold_names ps argc bs : forall l, length l = argc ->
  length (fold_left (put_one ps argc) bs l) = argc /\
  forall i p, nth i (fold_left (put_one ps argc) bs l) None = Some p <->
    (In p bs /\ links_to ps argc i p) \/
    (nth i l None = Some p /\ forall q, In q bs -> ~ links_to ps argc i q).
Proof.
  induction bs as [|b bs IH]; intros l L; cbn [fold_left].
  - split; [exact L|]. intros i p. split; [intros H; right; split; [exact H|intros q []]|].
    intros [([] & _)|(H & _)]; exact H.
  - assert (L' : length (put_one ps argc l b) = argc).
    { unfold put_one. destruct (param_index ps b 0); [|exact L]. destruct (Nat.ltb _ _); [rewrite put_length|]; exact L. }
    destruct (IH _ L') as (IH1 & IH2). split; [exact IH1|]. intros i p. rewrite IH2. clear IH IH1 IH2.
    assert (U : forall q q', links_to ps argc i q -> links_to ps argc i q' -> q = q').
    { intros q q' (_ & A & _) (_ & B & _). congruence. }
    assert (N : nth i (put_one ps argc l b) None = Some p <->
      (b = p /\ links_to ps argc i b) \/ (nth i l None = Some p /\ ~ links_to ps argc i b)).
    { rewrite !links_index. unfold put_one. destruct (param_index ps b 0) as [x|] eqn:E.
      - destruct (Nat.ltb_spec x argc) as [Lx|Lx].
        + rewrite put_nth by lia. destruct (Nat.eqb_spec i x) as [->|Ni].
          * split; [intros H; injection H as ->; left; repeat split; auto|].
            intros [(-> & _)|(_ & H)]; [reflexivity|]. exfalso. apply H. auto.
          * split; [intros H; right; split; [exact H|]; intros (H1 & _); congruence|].
            intros [(_ & H1 & _)|(H & _)]; [congruence|exact H].
        + split; [intros H; right; split; [exact H|]; intros (H1 & H2); injection H1 as ->; lia|].
          intros [(_ & H1 & H2)|(H & _)]; [injection H1 as ->; lia|exact H].
      - split; [intros H; right; split; [exact H|]; intros (H1 & _); discriminate|].
        intros [(_ & H1 & _)|(H & _)]; [discriminate|exact H]. }
    rewrite N. cbn [In]. clear N. split.
    + intros [(A & B)|([(-> & A)|(A & B)] & C)].
      * left. auto.
      * left. auto.
      * right. split; [exact A|]. intros q [<-|Q]; auto.
    + intros [([<-|A] & B)|(A & B)].
      * (* the binding itself *)
        destruct (in_dec Z.eq_dec b bs) as [Y|Y]; [left; auto|]. right. split; [left; auto|].
        intros q Q C. assert (q = b) by (eapply U; eauto). subst. contradiction.
      * left. auto.
      * right. split; [right; split; [exact A|apply B; auto]|]. intros q Q. apply B. auto.
Qed.

Lemma new_names ps bs vals rest e :
  let a := new_args ps bs vals rest e in
  length (names a) = length vals /\
  forall i p, nth i (names a) None = Some p <-> In p bs /\ links_to ps (length vals) i p.
Proof.
  cbn [new_args names].
  destruct (fold_names ps (length vals) bs (repeat None (length vals)) (repeat_length _ _)) as (F1 & F2).
  split; [exact F1|]. intros i p.
  change (fold_left _ bs _) with (fold_left (put_one ps (length vals)) bs (repeat None (length vals))). rewrite F2.
  split; [|left; assumption]. intros [H|(H & _)]; [exact H|]. exfalso. clear - H.
  revert i H. induction (length vals) as [|n IH]; intros [|i] H; cbn in H; try discriminate. eapply IH; eauto.
Qed.

Definition rest_ok (rest : nkey -> option prop) : Prop := forall n p, rest n = Some p -> wfp p.

Lemma new_inv ps bs vals rest e : rest_ok rest -> Inv (new_args ps bs vals rest e).
Proof.
  intros Rk. pose proof (new_names ps bs vals rest e) as N. cbn zeta in N. destruct N as (L & N).
  set (a := new_args ps bs vals rest e) in *. split.
  - intros [i|n] p; cbn [a new_args props]; [|apply Rk].
    destruct (_ && _); [|discriminate]. intros H. injection H as <-. intros H. discriminate H.
  - intros k i n M. apply mapped_inv in M as (-> & Li & _). rewrite L in Li.
    cbn [a new_args props]. destruct (Z.leb_spec 0 (Z.of_nat i)); [|lia].
    destruct (Z.ltb_spec (Z.of_nat i) (Z.of_nat (length vals))); [|lia]. cbn [andb]. eexists. split; [reflexivity|]. split; reflexivity.
  - intros j k i i' n Mj Mk. apply mapped_inv in Mj as (-> & _ & A). apply mapped_inv in Mk as (-> & _ & B).
    apply N in A as (_ & A). apply N in B as (_ & B). apply links_index in A as (A & _). apply links_index in B as (B & _).
    congruence.
Qed.

Lemma new_links ps bs vals rest e : (forall p, In p ps -> In p bs) ->
  forall k p, link (show (new_args ps bs vals rest e)) k = Some p <->
    exists i, k = KIdx (Z.of_nat i) /\ links_to ps (length vals) i p.
Proof.
  intros Sub k p. pose proof (new_names ps bs vals rest e) as N. cbn zeta in N. destruct N as (L & N).
  cbn [link show]. split.
  - destruct (mapped _ k) as [(i, n)|] eqn:M; [|discriminate]. intros H. injection H as ->.
    apply mapped_inv in M as (-> & _ & B). apply N in B as (_ & B). eauto.
  - intros (i & -> & H). assert (I : In p bs) by (apply Sub; destruct H as (_ & H & _); eapply nth_error_In; eauto).
    assert (B : nth i (names (new_args ps bs vals rest e)) None = Some p) by (apply N; auto).
    rewrite (mapped_intro _ i p); [reflexivity| |exact B]. rewrite L. apply H.
Qed.

Lemma new_vis ps bs vals rest e : (forall i p, links_to ps (length vals) i p -> e p = nth i vals Undef) ->
  forall i, vis (show (new_args ps bs vals rest e)) (KIdx i) =
    if (0 <=? i) && (i <? Z.of_nat (length vals)) then Some (AData (nth (Z.to_nat i) vals Undef) true true true) else None.
Proof.
  intros V i. pose proof (new_names ps bs vals rest e) as N. cbn zeta in N. destruct N as (L & N).
  cbn [vis show]. cbn [new_args props]. destruct (_ && _) eqn:R; [|reflexivity].
  destruct (mapped _ _) as [(j, n)|] eqn:M; [|reflexivity]. apply mapped_inv in M as (E & _ & B). injection E as ->.
  apply N in B as (_ & B). cbn. rewrite (V _ _ B), Nat2Z.id. reflexivity.
Qed.

Lemma arguments_are_standard : forall params bindings vals rest e ops,
  (forall p, In p params -> In p bindings) -> params_hold params vals e ->
  (forall n p, rest n = Some p -> wfp p) -> Forall op_fits ops ->
  exists s, starts params vals (fun n => option_map view (rest n)) e s /\
            sruns s ops (run (new_args params bindings vals rest e) ops).
Proof.
  intros ps bs vals rest e ops Sub H Rk F. set (a := new_args ps bs vals rest e). exists (show a).
  assert (I : Inv a) by (apply new_inv; exact Rk). split; [|apply run_ok; assumption].
  assert (V : forall i, vis (show a) (KIdx i) =
    if (0 <=? i) && (i <? Z.of_nat (length vals)) then Some (AData (nth (Z.to_nat i) vals Undef) true true true) else None).
  { apply new_vis. intros i p L. specialize (H i p L). symmetry. apply nth_error_nth. exact H. }
  split; [apply new_links; exact Sub|]. split; [|split; [|split; [|split; reflexivity]]].
  - intros i v N. rewrite V. assert (L : (i < length vals)%nat) by (apply nth_error_Some; congruence).
    destruct (Z.leb_spec 0 (Z.of_nat i)); [|lia]. destruct (Z.ltb_spec (Z.of_nat i) (Z.of_nat (length vals))); [|lia].
    cbn [andb]. rewrite Nat2Z.id, (nth_error_nth vals i Undef N). reflexivity.
  - intros i R. rewrite V. destruct (Z.leb_spec 0 i); [|reflexivity].
    destruct (Z.ltb_spec i (Z.of_nat (length vals))); [lia|reflexivity].
  - intros n. cbn [vis show a new_args props]. destruct (rest n) as [p|]; [|reflexivity].
    cbn [mapped option_map]. destruct (view p); reflexivity.
Qed.

(** *** The specification is deterministic *)
Definition same (s s' : aobj) : Prop :=
  (forall k, vis s k = vis s' k) /\ (forall k, link s k = link s' k) /\ sext s = sext s' /\ (forall p, par s p = par s' p).

Lemma changed_det d p q q' : wf_desc d -> changed d p q -> changed d p q' -> q = q'.
Proof.
  intros W C C'. inversion C; subst; inversion C'; subst; try reflexivity; contradiction.
Qed.
Lemma created_det d p q : created d p -> created d q -> p = q.
Proof. intros [(A & ->)|(A & ->)] [(B & ->)|(B & ->)]; try reflexivity; contradiction. Qed.
Lemma define_det e d c r r' x x' : wf_desc d -> ecma_define e d c r x -> ecma_define e d c r' x' -> r = r' /\ x = x'.
Proof.
  intros W H H'. inversion H; subst; inversion H'; subst; try congruence; try contradiction; split; try reflexivity; f_equal.
  - eapply created_det; eauto.
  - eapply changed_det; eauto.
Qed.
Lemma unchanged_same s s' t t' : same s s' -> unchanged s t -> unchanged s' t' -> same t t'.
Proof.
  intros (S1 & S2 & S3 & S4) (U1 & U2 & U3 & U4) (V1 & V2 & V3 & V4).
  split; [intros; rewrite U1, V1; auto|]. split; [intros; rewrite U2, V2; auto|]. split; [congruence|intros; rewrite U4, V4; auto].
Qed.
Lemma replaced_same s s' t t' k x : same s s' -> replaced s k x t -> replaced s' k x t' -> same t t'.
Proof.
  intros (S1 & S2 & S3 & S4) (U1 & U2 & U3 & U4 & U5 & U6 & U7) (V1 & V2 & V3 & V4 & V5 & V6 & V7).
  split; [|split; [|split]].
  - intros j. destruct (keyb j k) as [->|N]; [congruence|]. rewrite U2, V2 by assumption. auto.
  - intros j. destruct (keyb j k) as [->|N]; [rewrite U3, V3, S2; reflexivity|]. rewrite U4, V4 by assumption. auto.
  - congruence.
  - intros p. destruct (link s k) as [q|] eqn:L.
    + destruct (Z.eq_dec q p) as [->|N].
      * rewrite (U7 p eq_refl). rewrite (V7 p) by (rewrite <- S2; exact L). destruct x as [[]|]; auto.
      * rewrite U6 by congruence. rewrite V6 by (rewrite <- S2; congruence). auto.
    + rewrite U6 by congruence. rewrite V6 by (rewrite <- S2; congruence). auto.
Qed.
Lemma written_same s s' t t' p v : same s s' -> written s p v t -> written s' p v t' -> same t t'.
Proof.
  intros (S1 & S2 & S3 & S4) (U1 & U2 & U3 & U4 & U5 & U6) (V1 & V2 & V3 & V4 & V5 & V6).
  split; [|split; [|split]].
  - intros k. destruct (link s k) as [q|] eqn:L.
    + destruct (Z.eq_dec q p) as [->|N].
      * rewrite (U6 k L). rewrite (V6 k) by (rewrite <- S2; exact L). rewrite S1. reflexivity.
      * rewrite U5 by congruence. rewrite V5 by (rewrite <- S2; congruence). auto.
    + rewrite U5 by congruence. rewrite V5 by (rewrite <- S2; congruence). auto.
  - intros k. rewrite U3, V3. auto.
  - congruence.
  - intros q. destruct (Z.eq_dec q p) as [->|N]; [congruence|]. rewrite U2, V2 by assumption. auto.
Qed.

Lemma sstep_det s s' o t t' x x' : op_fits o -> same s s' -> sstep s o t x -> sstep s' o t' x' -> same t t' /\ x = x'.
Proof.
  intros F Sm A B. pose proof Sm as (S1 & S2 & S3 & S4).
  destruct A; inversion B; subst; rewrite ?S1 in *; try congruence;
    repeat match goal with
    | E : vis s' ?k = _, E' : vis s' ?k = _ |- _ => rewrite E in E'; try discriminate E'; injection E'; intros; subst; clear E'
    end;
    try (split; [eapply unchanged_same; [exact Sm|eassumption|eassumption]|try reflexivity; congruence]).
  - (* define *) rewrite S3 in H. destruct (define_det _ _ _ _ _ _ _ F H H3) as (-> & ->).
    split; [eapply replaced_same; [exact Sm|eassumption|eassumption]|reflexivity].
  - (* set new *)
    match goal with X : ecma_define (sext s) _ None _ _, Y : ecma_define (sext s') _ None _ _ |- _ =>
      rewrite S3 in X; destruct (define_det _ _ _ _ _ _ _ (all_true_wf v) X Y) as (-> & ->) end.
    split; [eapply replaced_same; [exact Sm|eassumption|eassumption]|reflexivity].
  - split; [eapply replaced_same; [exact Sm|eassumption|eassumption]|reflexivity].
  - split; [eapply replaced_same; [exact Sm|eassumption|eassumption]|reflexivity].
  - split; [|reflexivity]. split; [|split; [|split]].
    + intros k. rewrite H, H3. auto.
    + intros k. rewrite H0, H4. auto.
    + congruence.
    + intros p. rewrite H2, H6. auto.
  - split; [eapply written_same; [exact Sm|eassumption|eassumption]|reflexivity].
Qed.

Lemma sruns_det ops : forall s s' l l', Forall op_fits ops -> same s s' -> sruns s ops l -> sruns s' ops l' -> l = l'.
Proof.
  induction ops as [|o ops IH]; intros s s' l l' F Sm A B; inversion A; subst; inversion B; subst; [reflexivity|].
  destruct (sstep_det s s' o _ _ _ _ (Forall_inv F) Sm H3 H6) as (S1 & ->). f_equal.
  eapply IH; [exact (Forall_inv_tail F)|exact S1|eassumption|eassumption].
Qed.

Lemma arguments_determined : forall params vals rest e ops s s' l l',
  starts params vals rest e s -> starts params vals rest e s' ->
  Forall op_fits ops ->
  sruns s ops l -> sruns s' ops l' -> l = l'.
Proof.
  intros ps vals rest e ops s s' l l' (A1 & A2 & A3 & A4 & A5 & A6) (B1 & B2 & B3 & B4 & B5 & B6) F R R'.
  eapply sruns_det; [exact F| |exact R|exact R']. split; [|split; [|split]].
  - intros [i|n]; [|rewrite A4, B4; reflexivity].
    destruct (Z_lt_dec i 0); [rewrite A3, B3 by (left; lia); reflexivity|].
    destruct (Z_le_dec (Z.of_nat (length vals)) i); [rewrite A3, B3 by (right; lia); reflexivity|].
    destruct (nth_error vals (Z.to_nat i)) as [v|] eqn:N; [|apply nth_error_None in N; lia].
    pose proof (A2 _ _ N) as X. pose proof (B2 _ _ N) as Y. rewrite Z2Nat.id in X, Y by lia. congruence.
  - intros k. destruct (link s k) as [p|] eqn:L.
    + apply A1 in L. apply B1 in L. congruence.
    + destruct (link s' k) as [p|] eqn:L'; [|reflexivity]. apply B1 in L'. apply A1 in L'. congruence.
  - congruence.
  - intros p. rewrite A6, B6. reflexivity.
Qed.
