From Coq Require Import ZArith List Bool Lia Sorting.Sorted.
From Coq Require Logic.FinFun.
Import ListNotations.
From Verif Require Import StrModel StoreModel StoreSpec StoreProofs ObjModel ObjSpec ObjProofs ArrProofs.
Local Open Scope Z_scope.

Record HInv (h : heap) : Prop := {
  hi_objs : forall x o, nth_error h x = Some o -> OInv o;
  hi_refs : forall x y, edge h x y -> (y < length h)%nat;
  hi_acyclic : forall x, ~ reach h x x
}.

Lemma put_length : forall h x o, length (put h x o) = length h.
Proof. induction h as [|a h IH]; intros x o; [reflexivity|]. destruct x; cbn; [reflexivity | rewrite IH; reflexivity]. Qed.
Lemma put_same : forall h x o, (x < length h)%nat -> nth_error (put h x o) x = Some o.
Proof. induction h as [|a h IH]; intros x o H; [cbn in H; lia|]. destruct x; [reflexivity|]. cbn in *. apply IH. lia. Qed.
Lemma put_other : forall h x y o, x <> y -> nth_error (put h x o) y = nth_error h y.
Proof. induction h as [|a h IH]; intros x y o H; [reflexivity|]. destruct x, y; cbn; try reflexivity; [congruence | apply IH; congruence]. Qed.
Lemma nth_lt : forall {A} (l : list A) n x, nth_error l n = Some x -> (n < length l)%nat.
Proof. intros A l n x H. apply nth_error_Some. congruence. Qed.
Lemma put_nth : forall h x o o' y oy, nth_error h x = Some o -> nth_error (put h x o') y = Some oy -> (y = x /\ oy = o') \/ (y <> x /\ nth_error h y = Some oy).
Proof.
  intros h x o o' y oy H1 H2. destruct (Nat.eq_dec y x) as [-> | N].
  - rewrite put_same in H2 by (eapply nth_lt; exact H1). left. split; congruence.
  - rewrite put_other in H2 by congruence. right. auto.
Qed.
Lemma app_nth : forall (h : heap) o x ox, nth_error (h ++ [o]) x = Some ox -> (x = length h /\ ox = o) \/ nth_error h x = Some ox.
Proof.
  intros h o x ox H. destruct (Nat.lt_ge_cases x (length h)) as [L | G]; [rewrite nth_error_app1 in H by exact L; right; exact H|].
  rewrite nth_error_app2 in H by exact G. destruct (x - length h)%nat as [|m] eqn:E; [|destruct m; discriminate].
  left. split; [lia | cbn in H; congruence].
Qed.

(** ** reachability *)
Lemma reach_ext : forall h h', (forall x y, edge h' x y -> edge h x y) -> forall x y, reach h' x y -> reach h x y.
Proof. intros h h' E x y R. induction R as [x y H|x y z H R IH]; [apply reach_one; auto | eapply reach_step; eauto]. Qed.
Lemma reach_trans : forall h x y z, reach h x y -> reach h y z -> reach h x z.
Proof. intros h x y z R1 R2. induction R1 as [x y H|x y w H R IH]; [eapply reach_step; eauto | eapply reach_step; [exact H | apply IH; exact R2]]. Qed.
Definition reach_eq (h : heap) (x y : nat) : Prop := x = y \/ reach h x y.
Lemma reach_eq_edge : forall h x y z, edge h x y -> reach_eq h y z -> reach h x z.
Proof. intros h x y z E [-> | R]; [apply reach_one; exact E | eapply reach_step; eauto]. Qed.

(** the loop of set_prototype_of ends *)
Lemma walk_ends : forall fuel h x p visited, HInv h -> NoDup visited -> (forall v, In v visited -> (v < length h)%nat) ->
  (forall y, p = Some y -> forall v, In v visited -> reach h v y) ->
  (length h < length visited + fuel)%nat -> walk fuel h x p <> None.
Proof.
  induction fuel as [|f IH]; intros h x p visited HI ND IN RE LEN.
  - exfalso. assert (length visited <= length (seq 0 (length h)))%nat.
    { apply NoDup_incl_length; [exact ND|]. intros v Hv. apply in_seq. specialize (IN v Hv). lia. }
    rewrite seq_length in H. lia.
  - cbn [walk]. destruct p as [y|]; [|discriminate]. destruct (Nat.eqb y x); [discriminate|]. destruct (nth_error h y) as [oy|] eqn:Y; [|discriminate].
    assert (NX : walk f h x (proto oy) <> None); [|destruct (kind oy); [exact NX | exact NX | discriminate]].
    apply (IH h x (proto oy) (y :: visited)); [exact HI | | | |].
    + constructor; [|exact ND]. intro H. apply (hi_acyclic h HI y). apply (RE y eq_refl y H).
    + intros v [<- | H]; [eapply nth_lt; exact Y | apply IN; exact H].
    + intros z Hz v [<- | H]; [apply reach_one; exists oy; auto|]. eapply reach_trans; [apply (RE y eq_refl v H)|]. apply reach_one. exists oy. auto.
    + cbn [length]. lia.
Qed.
(** and says whether the object is reached *)
Lemma walk_spec : forall fuel h x p r, HInv h -> (forall y, p = Some y -> (y < length h)%nat) -> walk fuel h x p = Some r ->
  exists b, r = SOk b /\ (b = true <-> exists y, p = Some y /\ reach_eq h y x).
Proof.
  induction fuel as [|f IH]; intros h x p r HI V H; [discriminate|]. cbn [walk] in H. destruct p as [y|].
  2: { injection H as <-. exists false. split; [reflexivity|]. split; [discriminate | intros (y & E & _); discriminate]. }
  destruct (Nat.eqb_spec y x) as [-> | N].
  { injection H as <-. exists true. split; [reflexivity|]. split; [intros _; exists x; split; [reflexivity | left; reflexivity] | reflexivity]. }
  destruct (nth_error h y) as [oy|] eqn:Y; [|apply nth_error_None in Y; specialize (V y eq_refl); lia].
  assert (EX : kind oy = Exotic -> r = SOk false -> exists b, r = SOk b /\ (b = true <-> exists z, Some y = Some z /\ reach_eq h z x)).
  { intros K ->. exists false. split; [reflexivity|]. split; [discriminate|]. intros (z & E & R). injection E as <-. destruct R as [E | R]; [contradiction|].
    assert (P : proto oy = None) by (apply (oi_exo oy (hi_objs h HI y oy Y) K)).
    inversion R as [a b (o & O1 & O2)|a b c (o & O1 & O2) _]; subst; congruence. }
  assert (ORD : walk f h x (proto oy) = Some r -> exists b, r = SOk b /\ (b = true <-> exists z, Some y = Some z /\ reach_eq h z x)).
  { intro HW. destruct (IH h x (proto oy) r HI) as (b & -> & B); [|exact HW|].
    - intros z Hz. apply (hi_refs h HI y z). exists oy. auto.
    - exists b. split; [reflexivity|]. rewrite B. split.
      + intros (z & Hz & R). exists y. split; [reflexivity|]. right. eapply reach_eq_edge; [exists oy; split; [exact Y | exact Hz] | exact R].
      + intros (z & E & R). injection E as <-. destruct R as [E | R]; [contradiction|].
        inversion R as [a b0 (o & O1 & O2)|a b0 c (o & O1 & O2) R2]; subst; rewrite Y in O1; injection O1 as <-; [exists x; split; [exact O2 | left; reflexivity] | exists b0; split; [exact O2 | right; exact R2]]. }
  destruct (kind oy) eqn:K; [apply ORD; exact H | apply ORD; exact H | injection H as <-; apply EX; reflexivity].
Qed.

(** ** effects *)
Inductive effect (h : heap) (k : option key) : heap -> Prop :=
  | ef_same : effect h k h
  | ef_good : forall x o o', nth_error h x = Some o -> good o o' k -> effect h k (put h x o')
  | ef_prevent : forall x o, nth_error h x = Some o -> effect h k (put h x (with_ext o false))
  | ef_proto : forall x o p, nth_error h x = Some o -> kind o <> Exotic -> ext o = true ->
      (forall y, p = Some y -> (y < length h)%nat /\ ~ reach_eq h y x) -> effect h k (put h x (with_proto o p))
  | ef_new : forall o, OInv o -> (forall y, proto o = Some y -> (y < length h)%nat) ->
      (named o = [] \/ map fst (named o) = [length_key]) -> arr o = empty_store -> effect h k (h ++ [o]).

Lemma edge_put : forall h x o o' a b, nth_error h x = Some o -> proto o' = proto o -> edge (put h x o') a b -> edge h a b.
Proof.
  intros h x o o' a b H P (oa & O1 & O2). destruct (put_nth h x o o' a oa H O1) as [[-> ->] | [N O3]]; [exists o; split; [exact H | congruence] | exists oa; auto].
Qed.
Lemma put_hinv : forall h x o o', HInv h -> nth_error h x = Some o -> OInv o' -> proto o' = proto o -> HInv (put h x o').
Proof.
  intros h x o o' HI H OI P. constructor.
  - intros y oy HY. destruct (put_nth h x o o' y oy H HY) as [[-> ->] | [N O3]]; [exact OI | eapply (hi_objs h HI); exact O3].
  - intros a b E. rewrite put_length. eapply (hi_refs h HI). eapply edge_put; eassumption.
  - intros a R. apply (hi_acyclic h HI a). eapply reach_ext; [|exact R]. intros c d. eapply edge_put; eassumption.
Qed.
Lemma with_ext_inv : forall o b, OInv o -> OInv (with_ext o b).
Proof.
  intros o b [B A E]. constructor; [|exact A | exact E]. destruct B as [B1 B2 B3]. constructor; [exact B1 | exact B2 | exact B3].
Qed.
Lemma with_proto_inv : forall o p, OInv o -> kind o <> Exotic -> OInv (with_proto o p).
Proof.
  intros o p [B A E] K. constructor; [|exact A | cbn; contradiction]. destruct B as [B1 B2 B3]. constructor; [exact B1 | exact B2 | exact B3].
Qed.

Lemma reach_put_proto : forall h x o p a b, nth_error h x = Some o -> reach (put h x (with_proto o p)) a b ->
  reach h a b \/ (reach_eq h a x /\ exists y, p = Some y /\ reach_eq h y b).
Proof.
  intros h x o p a b H R. induction R as [a b E|a b c E R IH].
  - destruct E as (oa & O1 & O2). destruct (put_nth h x o _ a oa H O1) as [[-> ->] | [N O3]].
    + right. split; [left; reflexivity|]. exists b. split; [exact O2 | left; reflexivity].
    + left. apply reach_one. exists oa. auto.
  - destruct E as (oa & O1 & O2). destruct (put_nth h x o _ a oa H O1) as [[-> ->] | [N O3]].
    + right. split; [left; reflexivity|]. cbn in O2. destruct IH as [R2 | [R2 (y & Y1 & Y2)]].
      * exists b. split; [exact O2 | right; exact R2].
      * exists y. auto.
    + assert (E : edge h a b) by (exists oa; auto). destruct IH as [R2 | [R2 Y]]; [left; eapply reach_step; eauto | right; split; [right; eapply reach_eq_edge; eauto | exact Y]].
Qed.

Lemma effect_hinv : forall h k h', HInv h -> effect h k h' -> HInv h'.
Proof.
  intros h k h' HI E. destruct E as [|x o o' H G|x o H|x o p H K X P|o OI PO NM EM].
  - exact HI.
  - eapply put_hinv; [exact HI | exact H | apply G | apply G].
  - eapply put_hinv; [exact HI | exact H | apply with_ext_inv; eapply hi_objs; eassumption | reflexivity].
  - constructor.
    + intros y oy HY. destruct (put_nth h x o _ y oy H HY) as [[-> ->] | [N O3]]; [apply with_proto_inv; [eapply hi_objs; eassumption | exact K] | eapply (hi_objs h HI); exact O3].
    + intros a b (oa & O1 & O2). rewrite put_length. destruct (put_nth h x o _ a oa H O1) as [[-> ->] | [N O3]]; [apply (P b O2) | apply (hi_refs h HI a b); exists oa; auto].
    + intros a R. destruct (reach_put_proto h x o p a a H R) as [R2 | [R2 (y & Y1 & Y2)]]; [apply (hi_acyclic h HI a R2)|].
      destruct (P y Y1) as [_ NR]. apply NR. destruct Y2 as [-> | Y2]; [exact R2|]. destruct R2 as [-> | R2]; [right; exact Y2 | right; eapply reach_trans; eassumption].
  - assert (ED : forall a b, edge (h ++ [o]) a b -> (b < length h)%nat /\ (a < length h -> edge h a b)%nat).
    { intros a b (oa & O1 & O2). destruct (app_nth h o a oa O1) as [[-> ->] | O3].
      - split; [apply PO; exact O2 | lia].
      - split; [apply (hi_refs h HI a b); exists oa; auto | intros _; exists oa; auto]. }
    constructor.
    + intros y oy HY. destruct (app_nth h o y oy HY) as [[-> ->] | O3]; [exact OI | eapply (hi_objs h HI); exact O3].
    + intros a b E. rewrite app_length. cbn. destruct (ED a b E). lia.
    + assert (RL : forall a b, reach (h ++ [o]) a b -> (b < length h)%nat /\ ((a < length h)%nat -> reach h a b)).
      { intros a b R. induction R as [a b E|a b c E R IH]; destruct (ED a b E) as [L1 E1].
        - split; [exact L1 | intro L; apply reach_one; apply E1; exact L].
        - destruct IH as [L2 R2]. split; [exact L2 | intro L; eapply reach_step; [apply E1; exact L | apply R2; exact L1]]. }
      intros a R. destruct (RL a a R) as [L1 R1]. apply (hi_acyclic h HI a). apply R1. exact L1.
Qed.

Definition hevolves (h h' : heap) : Prop := forall x o, nth_error h x = Some o -> exists o', nth_error h' x = Some o' /\ evolves o o'.
Lemma put_hevolves : forall h x o o', nth_error h x = Some o -> evolves o o' -> hevolves h (put h x o').
Proof.
  intros h x o o' H E y oy HY. destruct (Nat.eq_dec x y) as [-> | N].
  - exists o'. split; [apply put_same; eapply nth_lt; exact H|]. rewrite H in HY. injection HY as <-. exact E.
  - exists oy. split; [rewrite put_other by exact N; exact HY | apply evolves_refl].
Qed.
Lemma effect_evolves : forall h k h', HInv h -> effect h k h' -> hevolves h h'.
Proof.
  intros h k h' HI E. destruct E as [|x o o' H G|x o H|x o p H K X P|o OI PO NM EM].
  - intros y oy HY. exists oy. split; [exact HY | apply evolves_refl].
  - eapply put_hevolves; [exact H | apply G].
  - eapply put_hevolves; [exact H|]. constructor; try reflexivity; auto. intros k0 p0 H1 _. exists p0. split; [exact H1 | apply stable_refl].
  - eapply put_hevolves; [exact H|]. constructor; try reflexivity; auto; [congruence|]. intros k0 p0 H1 _. exists p0. split; [exact H1 | apply stable_refl].
  - intros y oy HY. exists oy. split; [rewrite nth_error_app1 by (eapply nth_lt; exact HY); exact HY | apply evolves_refl].
Qed.

(** ** every step is an effect *)
Lemma upd_obj_effect : forall h x o k d cv, HInv h -> nth_error h x = Some o -> valid_key k -> wf_desc d ->
  match upd_obj h x (o_define o k d cv) with Done (h', r) => effect h (Some k) h' | Undefined => undefined_define o k d cv | Loops => False end.
Proof.
  intros h x o k d cv HI H V W. unfold upd_obj. destruct (o_define_good o k d cv (hi_objs h HI x o H) V W) as [(E & U) | (o' & r & E & G)]; rewrite E; cbn [lift bind fst snd].
  - exact U.
  - eapply ef_good; eassumption.
Qed.
Lemma set_receiver_effect : forall h rcv k v cv w, HInv h -> valid_key k -> (forall y, rcv = Some y -> (y < length h)%nat) ->
  match set_receiver h rcv k v cv w with Done (h', r) => effect h (Some k) h' | Undefined => exists y oy d, nth_error h y = Some oy /\ undefined_define oy k d cv | Loops => False end.
Proof.
  intros h rcv k v cv w HI V RV. unfold set_receiver. destruct w; cbn [negb]; [|apply ef_same]. destruct rcv as [y|]; [|apply ef_same].
  destruct (nth_error h y) as [oy|] eqn:Y; [|apply nth_error_None in Y; specialize (RV y eq_refl); lia].
  assert (ORD : match bind (lift (get_own oy k)) (fun c =>
                   match c with
                   | Some ed =>
                       if is_acc ed then Done (h, RFalse)
                       else if negb (flag (d_wr ed)) then Done (h, RFalse)
                       else upd_obj h y (o_define oy k {| d_val := Some v; d_wr := None; d_get := None; d_set := None; d_en := None; d_cf := None |} cv)
                   | None => upd_obj h y (o_define oy k (all_true v) cv)
                   end) with Done (h', r) => effect h (Some k) h' | Undefined => exists y oy d, nth_error h y = Some oy /\ undefined_define oy k d cv | Loops => False end).
  { unfold get_own. rewrite (o_lookup_spec oy k (oi_base oy (hi_objs h HI y oy Y)) V). cbn [sbind lift bind].
    destruct (look oy k) as [p|]; cbn [option_map].
    - destruct (is_acc (desc_of p)); [apply ef_same|]. destruct (negb (flag (d_wr (desc_of p)))); [apply ef_same|].
      pose proof (upd_obj_effect h y oy k {| d_val := Some v; d_wr := None; d_get := None; d_set := None; d_en := None; d_cf := None |} cv HI Y V ltac:(left; split; reflexivity)) as UE.
      destruct (upd_obj _ _ _) as [[h' r]| |]; [exact UE | eexists y, oy, _; split; [exact Y | exact UE] | exact UE].
    - pose proof (upd_obj_effect h y oy k (all_true v) cv HI Y V ltac:(left; split; reflexivity)) as UE.
      destruct (upd_obj _ _ _) as [[h' r]| |]; [exact UE | eexists y, oy, _; split; [exact Y | exact UE] | exact UE]. }
  destruct (kind oy); [exact ORD | exact ORD | apply ef_same].
Qed.
Lemma set_prop_effect : forall fuel h x k v rcv cv visited, HInv h -> valid_key k -> (forall y, rcv = Some y -> (y < length h)%nat) ->
  (x < length h)%nat -> NoDup visited -> (forall u, In u visited -> (u < length h)%nat) -> (forall u, In u visited -> reach h u x) ->
  (length h < length visited + fuel)%nat ->
  match set_prop fuel h x k v rcv cv with Done (h', r) => effect h (Some k) h' | Undefined => exists y oy d, nth_error h y = Some oy /\ undefined_define oy k d cv | Loops => False end.
Proof.
  induction fuel as [|f IH]; intros h x k v rcv cv visited HI V RV XL ND IN RE LEN.
  - cbn [set_prop]. assert (length visited <= length (seq 0 (length h)))%nat.
    { apply NoDup_incl_length; [exact ND|]. intros u Hu. apply in_seq. specialize (IN u Hu). lia. }
    rewrite seq_length in H. lia.
  - cbn [set_prop]. destruct (nth_error h x) as [o|] eqn:X; [|apply nth_error_None in X; lia].
    assert (ORD : match bind (lift (get_own o k)) (fun c =>
              match c with
              | None => match proto o with
                        | Some y => set_prop f h y k v rcv cv
                        | None => set_receiver h rcv k v cv true
                        end
              | Some d =>
                  if is_data d then set_receiver h rcv k v cv (flag (d_wr d))
                  else match d_set d with
                       | Some f => match f with Undef => Done (h, RFalse) | _ => Done (h, RCall f) end
                       | None => Undefined
                       end
              end) with Done (h', r) => effect h (Some k) h' | Undefined => exists y oy d, nth_error h y = Some oy /\ undefined_define oy k d cv | Loops => False end).
    { unfold get_own. rewrite (o_lookup_spec o k (oi_base o (hi_objs h HI x o X)) V). cbn [sbind lift bind]. destruct (look o k) as [p|]; cbn [option_map].
      - destruct (is_data (desc_of p)) eqn:D; [apply set_receiver_effect; assumption|]. unfold desc_of in *. destruct (acc p); [|discriminate]. cbn [d_set].
        destruct (pset p); apply ef_same.
      - destruct (proto o) as [y|] eqn:P; [|apply set_receiver_effect; assumption].
        assert (EY : edge h x y) by (exists o; auto).
        apply (IH h y k v rcv cv (x :: visited)); try assumption.
        + apply (hi_refs h HI x y EY).
        + constructor; [|exact ND]. intro H. apply (hi_acyclic h HI x). apply RE. exact H.
        + intros u [<- | H]; [exact XL | apply IN; exact H].
        + intros u [<- | H]; [apply reach_one; exact EY | eapply reach_trans; [apply RE; exact H | apply reach_one; exact EY]].
        + cbn [length]. lia. }
    destruct (kind o); [exact ORD | exact ORD | apply ef_same].
Qed.

(** the only ways an operation is undefined *)
Definition undefined_op (h : heap) (op : oop) : Prop :=
  (exists y oy k d cv, nth_error h y = Some oy /\ undefined_define oy k d cv /\
     match op with Define x k' d' cv' => y = x /\ k' = k /\ d' = d /\ cv' = cv | SetProp _ k' _ _ cv' => k' = k /\ cv' = cv | _ => False end).
Definition refs_ok (h : heap) (op : oop) : Prop :=
  let ok := fun p => forall y, p = Some y -> (y < length h)%nat in
  match op with
  | NewObject p => ok p | NewExotic => True | NewArray p _ => ok p
  | Define x _ _ _ => ok (Some x) | Delete x _ => ok (Some x)
  | SetProp x _ _ r _ => ok (Some x) /\ ok r
  | Prevent x => ok (Some x) | SetProto x p => ok (Some x) /\ ok p
  end.
Lemma new_base : forall k p, base {| kind := k; proto := p; ext := true; arr := empty_store; named := [] |}.
Proof. intros k p. constructor; [apply empty_inv | constructor | intros [i|n] q H; discriminate]. Qed.

Lemma step_effect : forall h op, HInv h -> op_ok op -> refs_ok h op ->
  match o_step h op with Done (h', r) => effect h (op_key op) h' | Undefined => undefined_op h op | Loops => False end.
Proof.
  intros h op HI OK RF. destruct op as [p| |p len|x k d cv|x k|x k v rcv cv|x|x p]; cbn [o_step op_key op_ok refs_ok] in *.
  - assert (RO : ref_ok h p = true) by (unfold ref_ok; destruct p as [y|]; [apply Nat.ltb_lt; apply RF; reflexivity | reflexivity]). rewrite RO.
    apply ef_new; [|exact RF | left; reflexivity | reflexivity]. constructor; [apply new_base | discriminate | discriminate].
  - apply ef_new; [|discriminate | left; reflexivity | reflexivity]. constructor; [apply new_base | discriminate | reflexivity].
  - assert (RO : ref_ok h p = true) by (unfold ref_ok; destruct p as [y|]; [apply Nat.ltb_lt; apply RF; reflexivity | reflexivity]). rewrite RO.
    unfold new_array. destruct (Z.ltb_spec 4294967295 len) as [L | L]; [apply ef_same|].
    cbn [sbind lift bind fst ord_define get_own o_lookup named n_find option_map validate_and_apply ext o_add with_named app].
    apply ef_new; [|exact RF | right; reflexivity | reflexivity]. constructor; [| |discriminate].
    + constructor; [apply empty_inv | cbn; constructor; [tauto | constructor] |]. intros [i|n] q H; [discriminate|]. unfold wfp. cbn in H. destruct n as [z|z]; [|discriminate].
      destruct z; try discriminate; injection H as <-; discriminate.
    + intros _. eexists _, len. split; [reflexivity|]. split; [constructor; try reflexivity; unfold limit; lia|]. intros i q H. discriminate.
  - destruct (nth_error h x) as [o|] eqn:X; [|apply nth_error_None in X; specialize (RF x eq_refl); lia].
    pose proof (upd_obj_effect h x o k d cv HI X (proj1 OK) (proj2 OK)) as UE. destruct (upd_obj _ _ _) as [[h' r]| |]; [exact UE | | exact UE].
    exists x, o, k, d, cv. split; [exact X|]. split; [exact UE|]. auto.
  - destruct (nth_error h x) as [o|] eqn:X; [|apply nth_error_None in X; specialize (RF x eq_refl); lia].
    destruct (o_delete_good o k (hi_objs h HI x o X) OK) as (o' & r & E & G & _). unfold upd_obj. rewrite E. cbn [lift bind fst snd]. eapply ef_good; eassumption.
  - destruct RF as [RX RV].
    pose proof (set_prop_effect (S (length h)) h x k v rcv cv [] HI OK RV (RX x eq_refl) (NoDup_nil _)) as SE.
    specialize (SE ltac:(intros u []) ltac:(intros u []) ltac:(cbn; lia)). destruct (set_prop _ _ _ _ _ _ _) as [[h' r]| |]; [exact SE | | exact SE].
    destruct SE as (y & oy & d & Y & U). exists y, oy, k, d, cv. auto.
  - destruct (nth_error h x) as [o|] eqn:X; [|apply nth_error_None in X; specialize (RF x eq_refl); lia].
    destruct (kind o); [apply ef_prevent; exact X | apply ef_prevent; exact X | apply ef_same].
  - destruct RF as [RX RP]. unfold set_proto. destruct (nth_error h x) as [o|] eqn:X; [|apply nth_error_None in X; specialize (RX x eq_refl); lia].
    assert (ORD : kind o <> Exotic ->
       match (if proto_eqb (proto o) p then Done (h, RTrue)
          else if negb (ext o) then Done (h, RFalse)
          else match walk (S (S (length h))) h x p with
               | None => Loops
               | Some r => bind (lift r) (fun cyc => if cyc : bool then Done (h, RFalse) else Done (put h x (with_proto o p), RTrue))
               end) with Done (h', r) => effect h None h' | Undefined => undefined_op h (SetProto x p) | Loops => False end).
    { intro K. destruct (proto_eqb (proto o) p); [apply ef_same|]. destruct (ext o) eqn:XE; cbn [negb]; [|apply ef_same].
      destruct (walk (S (S (length h))) h x p) as [r|] eqn:WK.
      2: { apply (walk_ends (S (S (length h))) h x p []) in WK; [exact WK | exact HI | constructor | intros v [] | intros y _ v [] | cbn; lia]. }
      destruct (walk_spec _ h x p r HI RP WK) as (b & -> & B). cbn [lift bind]. destruct b; [apply ef_same|].
      apply ef_proto; [exact X | exact K | exact XE|]. intros y Hy. split; [apply RP; exact Hy|]. intro R. assert (false = true) by (apply B; exists y; auto). discriminate. }
    destruct (kind o) eqn:K; [apply ORD; congruence | apply ORD; congruence | apply ef_same].
Qed.
(** an operation that finished referred to existing objects, or changed nothing *)
Lemma done_refs : forall h op h' r, HInv h -> o_step h op = Done (h', r) -> refs_ok h op \/ h' = h.
Proof.
  intros h op h' r HI E. destruct op as [p| |p len|x k d cv|x k|x k v rcv cv|x|x p]; cbn [o_step refs_ok] in *.
  - left. intros y ->. unfold ref_ok in E. destruct (Nat.ltb_spec y (length h)); [assumption | discriminate].
  - left. exact Logic.I.
  - left. intros y ->. unfold ref_ok in E. destruct (Nat.ltb_spec y (length h)); [assumption | discriminate].
  - left. intros y Hy. injection Hy as <-. destruct (nth_error h x) eqn:X; [eapply nth_lt; exact X | discriminate].
  - left. intros y Hy. injection Hy as <-. destruct (nth_error h x) eqn:X; [eapply nth_lt; exact X | discriminate].
  - assert (XL : (x < length h)%nat) by (cbn [set_prop] in E; destruct (nth_error h x) eqn:X; [eapply nth_lt; exact X | discriminate]).
    destruct rcv as [y|]; [|left; split; [intros z Hz; injection Hz as <-; exact XL | discriminate]].
    destruct (Nat.lt_ge_cases y (length h)) as [L | G]; [left; split; intros z Hz; injection Hz as <-; assumption|].
    right. apply nth_error_None in G. clear XL.
    assert (SR : forall w h1 r1, set_receiver h (Some y) k v cv w = Done (h1, r1) -> h1 = h).
    { intros w h1 r1. unfold set_receiver. destruct w; cbn [negb]; [rewrite G; discriminate | intro H; injection H as <- _; reflexivity]. }
    assert (SP : forall fuel x h1 r1, set_prop fuel h x k v (Some y) cv = Done (h1, r1) -> h1 = h).
    { induction fuel as [|f IH]; intros z h1 r1 H; [discriminate|]. cbn [set_prop] in H. destruct (nth_error h z) as [o|]; [|discriminate].
      assert (ORD : bind (lift (get_own o k)) (fun c =>
              match c with
              | None => match proto o with
                        | Some y0 => set_prop f h y0 k v (Some y) cv
                        | None => set_receiver h (Some y) k v cv true
                        end
              | Some d =>
                  if is_data d then set_receiver h (Some y) k v cv (flag (d_wr d))
                  else match d_set d with
                       | Some f => match f with Undef => Done (h, RFalse) | _ => Done (h, RCall f) end
                       | None => Undefined
                       end
              end) = Done (h1, r1) -> h1 = h).
      { destruct (get_own o k) as [c| |]; cbn [lift bind]; try discriminate. destruct c as [d|].
        - destruct (is_data d); [apply SR|]. destruct (d_set d) as [[| |]|]; intro E2; try discriminate; injection E2 as <- _; reflexivity.
        - destruct (proto o) as [y0|]; [apply IH | apply SR]. }
      destruct (kind o); [apply ORD; exact H | apply ORD; exact H | injection H as <- _; reflexivity]. }
    eapply SP. exact E.
  - left. intros y Hy. injection Hy as <-. destruct (nth_error h x) eqn:X; [eapply nth_lt; exact X | discriminate].
  - unfold set_proto in E. destruct (nth_error h x) as [o|] eqn:X; [|discriminate].
    assert (ORD : (if proto_eqb (proto o) p then Done (h, RTrue)
          else if negb (ext o) then Done (h, RFalse)
          else match walk (S (S (length h))) h x p with
               | None => Loops
               | Some r => bind (lift r) (fun cyc => if cyc : bool then Done (h, RFalse) else Done (put h x (with_proto o p), RTrue))
               end) = Done (h', r) -> ((forall y, Some x = Some y -> (y < length h)%nat) /\ (forall y, p = Some y -> (y < length h)%nat)) \/ h' = h).
    { destruct (proto_eqb (proto o) p); [intro H; injection H as <- _; right; reflexivity|]. destruct (negb (ext o)); [intro H; injection H as <- _; right; reflexivity|].
      destruct p as [y|].
      2: { intros _. left. split; [intros z Hz; injection Hz as <-; eapply nth_lt; exact X | discriminate]. }
      cbn [walk]. destruct (Nat.eqb y x); [cbn [lift bind]; intro H; injection H as <- _; right; reflexivity|].
      destruct (nth_error h y) as [oy|] eqn:Y; [|discriminate]. intros _. left. split; intros z Hz; injection Hz as <-; eapply nth_lt; eassumption. }
    destruct (kind o); [apply ORD; exact E | apply ORD; exact E | injection E as <- _; right; reflexivity].
Qed.

(** ** histories *)
Lemma run_orders_fst : forall ops h gs, match run_orders h gs ops with Done (h', gs') => o_run h ops = Done h' | Undefined => o_run h ops = Undefined | Loops => o_run h ops = Loops end.
Proof.
  induction ops as [|op ops IH]; intros h gs; [reflexivity|]. cbn [run_orders o_run]. destruct (o_step h op) as [[h1 r]| |]; cbn [bind fst]; [apply IH | reflexivity | reflexivity].
Qed.
Lemma o_run_app : forall ops1 ops2 h, o_run h (ops1 ++ ops2) = bind (o_run h ops1) (fun h1 => o_run h1 ops2).
Proof.
  induction ops1 as [|op ops IH]; intros ops2 h; [reflexivity|]. cbn [app o_run]. destruct (o_step h op) as [[h1 r]| |]; cbn [bind fst]; [apply IH | reflexivity | reflexivity].
Qed.
Lemma done_effect : forall h op h' r, HInv h -> op_ok op -> o_step h op = Done (h', r) -> effect h (op_key op) h'.
Proof.
  intros h op h' r HI OK E. destruct (done_refs h op h' r HI E) as [RF | ->]; [|apply ef_same].
  pose proof (step_effect h op HI OK RF) as SE. rewrite E in SE. exact SE.
Qed.
Lemma loops_effect : forall h op, HInv h -> op_ok op -> refs_ok h op -> o_step h op <> Loops.
Proof. intros h op HI OK RF E. pose proof (step_effect h op HI OK RF) as SE. rewrite E in SE. exact SE. Qed.

Lemma hevolves_trans : forall h1 h2 h3, hevolves h1 h2 -> hevolves h2 h3 -> hevolves h1 h3.
Proof. intros h1 h2 h3 A B x o H. destruct (A x o H) as (o1 & H1 & E1). destruct (B x o1 H1) as (o2 & H2 & E2). exists o2. split; [exact H2 | eapply evolves_trans; eassumption]. Qed.
Lemma run_hinv : forall ops h h', HInv h -> Forall op_ok ops -> o_run h ops = Done h' -> HInv h' /\ hevolves h h'.
Proof.
  induction ops as [|op ops IH]; intros h h' HI OK E.
  - injection E as <-. split; [exact HI|]. intros x o H. exists o. split; [exact H | apply evolves_refl].
  - cbn [o_run] in E. destruct (o_step h op) as [[h1 r]| |] eqn:S1; cbn [bind fst] in E; try discriminate.
    pose proof (done_effect h op h1 r HI (Forall_inv OK) S1) as EF.
    destruct (IH h1 h' (effect_hinv _ _ _ HI EF) (Forall_inv_tail OK) E) as [HI2 EV]. split; [exact HI2|].
    eapply hevolves_trans; [eapply effect_evolves; eassumption | exact EV].
Qed.
Lemma empty_hinv : HInv [].
Proof.
  constructor.
  - intros x o H. destruct x; discriminate.
  - intros x y (o & H & _). destruct x; discriminate.
  - intros x R. inversion R as [a b (o & H & _)|a b c (o & H & _) _]; destruct x; discriminate.
Qed.

(** ** creation order *)
Record ghost (g : list key) (o : obj) : Prop := {
  gh_in : forall k, In k g <-> look o k <> None;
  gh_nodup : NoDup g;
  gh_names : flat_map (fun k => match k with KName n => [n] | _ => [] end) g = map fst (named o)
}.
Definition nm (k : key) : list nkey := match k with KName n => [n] | _ => [] end.
Lemma shows_has : forall o k, base o -> valid_key k -> shows o k = has o k.
Proof. intros o k B V. unfold shows, get_own. rewrite (o_lookup_spec o k B V). cbn [sbind]. unfold has. destruct (look o k); reflexivity. Qed.
Lemma look_valid : forall o k, base o -> look o k <> None -> valid_key k.
Proof.
  intros o [i|n] B H; [|exact Logic.I]. cbn [look valid_key] in *. destruct (t_find (lst (its (arr o))) i) as [p|] eqn:F; [|contradiction].
  apply find_in in F. pose proof (inv_range _ (b_arr o B)) as R. unfold in_range in R. rewrite Forall_forall in R. exact (R _ F).
Qed.
Lemma flat_filter : forall (f : key -> bool) g, flat_map nm (filter f g) = filter (fun n => f (KName n)) (flat_map nm g).
Proof.
  intros f g. induction g as [|[i|n] g IH]; [reflexivity| |]; cbn [filter flat_map nm app].
  - destruct (f (KIdx i)); cbn [flat_map nm app]; exact IH.
  - destruct (f (KName n)); cbn [flat_map nm app]; rewrite IH; reflexivity.
Qed.
Lemma mem_in : forall k g, mem k g = true <-> In k g.
Proof.
  intros k g. unfold mem. rewrite existsb_exists. split.
  - intros (y & H & E). destruct (key_eqb_spec k y) as [-> | N]; [exact H | discriminate].
  - intro H. exists k. split; [exact H | apply key_refl].
Qed.
Lemma nodup_app1 : forall {A} (l : list A) x, NoDup l -> ~ In x l -> NoDup (l ++ [x]).
Proof.
  intros A l x ND NI. induction ND as [|y l H ND IH]; cbn; [constructor; [tauto | constructor]|].
  constructor.
  - rewrite in_app_iff. intros [H2 | [<- | []]]; [contradiction | apply NI; left; reflexivity].
  - apply IH. intro H2. apply NI. right. exact H2.
Qed.
Lemma has_true : forall o k, has o k = true <-> look o k <> None.
Proof. intros o k. unfold has. destruct (look o k); cbn; split; congruence. Qed.
Lemma filter_eq : forall {A} (f g : A -> bool) l, (forall x, In x l -> f x = g x) -> filter f l = filter g l.
Proof.
  intros A f g l H. induction l as [|a l IH]; [reflexivity|]. cbn. rewrite H by (left; reflexivity). rewrite IH by (intros x Hx; apply H; right; exact Hx). reflexivity.
Qed.

Lemma order_ghost : forall g o o' k, base o -> base o' -> ghost g o -> ordered_upd o o' k -> (forall j, k = Some j -> valid_key j) -> ghost (order_step g (shows o') k) o'.
Proof.
  intros g o o' k B B' [GI GN GM] [ON OM] V. unfold order_step.
  assert (FI : filter (shows o') g = filter (has o') g).
  { apply filter_eq. intros x Hx. apply shows_has; [exact B'|]. apply (look_valid o); [exact B|]. apply GI. exact Hx. }
  rewrite FI.
  assert (IN : forall j, In j (filter (has o') g) <-> look o j <> None /\ look o' j <> None).
  { intro j. rewrite filter_In, GI, has_true. reflexivity. }
  assert (NO : forall j, k <> Some j -> (In j (filter (has o') g) <-> look o' j <> None)).
  { intros j NK. rewrite IN. split; [tauto|]. intro H. split; [|exact H]. intro L. apply NK. apply ON; assumption. }
  assert (NF : NoDup (filter (has o') g)) by (apply NoDup_filter; exact GN).
  assert (GF : flat_map nm (filter (has o') g) = filter (fun n => has o' (KName n)) (map fst (named o))).
  { rewrite flat_filter. f_equal. exact GM. }
  destruct k as [k|].
  2: { rewrite app_nil_r in OM. constructor; [intro j; apply NO; discriminate | exact NF|]. change (flat_map nm (filter (has o') g) = map fst (named o')). congruence. }
  rewrite (shows_has o' k B' (V k eq_refl)).
  destruct (has o' k) eqn:H'; cbn [andb].
  - destruct (mem k (filter (has o') g)) eqn:M; cbn [negb].
    + apply mem_in in M. constructor; [|exact NF|].
      * intro j. destruct (key_eqb_spec k j) as [<- | N]; [apply has_true in H'; tauto | apply NO; congruence].
      * change (flat_map nm (filter (has o') g) = map fst (named o')). rewrite GF, OM. apply IN in M. destruct k as [i|n]; [rewrite app_nil_r; reflexivity|].
        rewrite (proj2 (has_true o (KName n)) (proj1 M)). rewrite app_nil_r. reflexivity.
    + assert (NM : ~ In k (filter (has o') g)) by (intro H; apply mem_in in H; congruence).
      assert (LN : has o k = false).
      { destruct (has o k) eqn:HK; [|reflexivity]. exfalso. apply NM. apply IN. split; apply has_true; assumption. }
      constructor.
      * intro j. rewrite in_app_iff. cbn [In]. destruct (key_eqb_spec k j) as [<- | N]; [apply has_true in H'; tauto|]. rewrite <- (NO j) by congruence. tauto.
      * apply nodup_app1; assumption.
      * change (flat_map nm (filter (has o') g ++ [k]) = map fst (named o')). rewrite flat_map_app, GF, OM. f_equal. destruct k as [i|n]; [reflexivity|]. rewrite LN, H'. reflexivity.
  - constructor; [|exact NF|].
    + intro j. destruct (key_eqb_spec k j) as [<- | N]; [|apply NO; congruence]. rewrite IN. assert (look o' k = None) by (unfold has in H'; destruct (look o' k); [discriminate | reflexivity]). tauto.
    + change (flat_map nm (filter (has o') g) = map fst (named o')). rewrite GF, OM. destruct k as [i|n]; [rewrite app_nil_r; reflexivity|]. rewrite H'.
      destruct (has o (KName n)); rewrite app_nil_r; reflexivity.
Qed.
Lemma refl_ordered : forall o k, base o -> ordered_upd o o k.
Proof.
  intros o k B. constructor; [intros j H1 H2; contradiction|].
  rewrite filter_all by (intros n Hn; apply has_named; exact Hn). destruct k as [[i|n]|]; try (rewrite app_nil_r; reflexivity). destruct (has o (KName n)); rewrite app_nil_r; reflexivity.
Qed.
Lemma new_ghost : forall o, OInv o -> named o = [] \/ map fst (named o) = [length_key] -> arr o = empty_store ->
  ghost (if shows o (KName length_key) then [KName length_key] else []) o.
Proof.
  intros o OI NM EM. rewrite (shows_has o (KName length_key) (oi_base o OI) Logic.I).
  assert (NI : forall i, look o (KIdx i) = None) by (intro i; cbn [look]; rewrite EM; reflexivity).
  assert (NN : forall n, look o (KName n) <> None <-> In n (map fst (named o))) by (intro n; apply n_find_in).
  destruct NM as [E | E].
  - assert (HF : has o (KName length_key) = false) by (unfold has; cbn [look]; rewrite E; reflexivity). rewrite HF. constructor; [|constructor | rewrite E; reflexivity].
    intros [i|n]; [rewrite NI; cbn; tauto | rewrite NN, E; reflexivity].
  - assert (HF : has o (KName length_key) = true) by (apply has_true; apply NN; rewrite E; left; reflexivity). rewrite HF. constructor.
    + intros [i|n]; [rewrite NI; cbn; split; [intros [H|[]]; discriminate | tauto] | rewrite NN, E; cbn]. split; intros [H|[]]; left; congruence.
    + constructor; [intros [] | constructor].
    + rewrite E. reflexivity.
Qed.

(** the ghosts of a whole heap *)
Definition ghosts (gs : list (list key)) (h : heap) : Prop := length gs = length h /\ forall x o g, nth_error h x = Some o -> nth_error gs x = Some g -> ghost g o.
Lemma track_spec : forall h gs k, length gs = length h -> length (track h gs k) = length h /\
  forall x o g, nth_error h x = Some o -> nth_error (track h gs k) x = Some g -> exists g0, nth_error gs x = Some g0 /\ g = order_step g0 (shows o) k.
Proof.
  induction h as [|a h IH]; intros gs k L.
  - split; [reflexivity|]. intros [|x] o g H; discriminate.
  - destruct gs as [|g0 gs]; [discriminate|]. cbn [length] in L. injection L as L. destruct (IH gs k L) as [L1 T]. cbn [track length]. split; [congruence|].
    intros [|x] o g H1 H2; cbn [nth_error] in *; [exists g0; split; [reflexivity | congruence] | apply T; assumption].
Qed.
Lemma track_app : forall h gs k o, length gs = length h -> track (h ++ [o]) gs k = track h gs k ++ [if shows o (KName length_key) then [KName length_key] else []].
Proof. induction h as [|a h IH]; intros gs k o L; destruct gs as [|g gs]; try discriminate; [reflexivity|]. cbn [app track]. rewrite IH by (cbn in L; congruence). reflexivity. Qed.
Lemma forall2_track : forall h h' gs k, HInv h -> HInv h' -> ghosts gs h -> length h' = length h -> (forall j, k = Some j -> valid_key j) ->
  (forall x o o', nth_error h x = Some o -> nth_error h' x = Some o' -> ordered_upd o o' k) -> ghosts (track h' gs k) h'.
Proof.
  intros h h' gs k HI HI' [GL G] L V U. destruct (track_spec h' gs k ltac:(congruence)) as [TL T]. split; [exact TL|].
  intros x o' g H1 H2. destruct (T x o' g H1 H2) as (g0 & G0 & ->). destruct (nth_error h x) as [o|] eqn:X; [|apply nth_error_None in X; apply nth_lt in H1; lia].
  eapply order_ghost; [apply (hi_objs h HI x o X) | apply (hi_objs h' HI' x o' H1) | eapply G; eassumption | eapply U; eassumption | exact V].
Qed.
Lemma effect_ghosts : forall h gs k h', HInv h -> ghosts gs h -> effect h k h' -> (forall j, k = Some j -> valid_key j) -> ghosts (track h' gs k) h'.
Proof.
  intros h gs k h' HI G E V. pose proof (effect_hinv h k h' HI E) as HI'.
  assert (SAME : forall x o o', nth_error h x = Some o -> nth_error h x = Some o' -> ordered_upd o o' k).
  { intros x o o' H1 H2. rewrite H1 in H2. injection H2 as <-. apply refl_ordered. apply (hi_objs h HI x o H1). }
  assert (PUT : forall x o o', nth_error h x = Some o -> h' = put h x o' -> ordered_upd o o' k -> ghosts (track h' gs k) h').
  { intros x o o' H -> OU. eapply forall2_track; [exact HI | exact HI' | exact G | apply put_length | exact V|]. intros y oy oy' H1 H2.
    destruct (put_nth h x o o' y oy' H H2) as [[-> ->] | [N O3]]; [rewrite H in H1; injection H1 as <-; exact OU | eapply SAME; eassumption]. }
  destruct E as [|x o o' H GD|x o H|x o p H K X P|o OI PO NM EM].
  - eapply forall2_track; [exact HI | exact HI | exact G | reflexivity | exact V | exact SAME].
  - eapply PUT; [exact H | reflexivity | apply GD].
  - eapply PUT; [exact H | reflexivity|]. destruct (refl_ordered o k (oi_base o (hi_objs h HI x o H))) as [R1 R2]. constructor; [exact R1 | exact R2].
  - eapply PUT; [exact H | reflexivity|]. destruct (refl_ordered o k (oi_base o (hi_objs h HI x o H))) as [R1 R2]. constructor; [exact R1 | exact R2].
  - destruct G as [GL G]. rewrite (track_app h gs k o GL). destruct (forall2_track h h gs k HI HI (conj GL G) eq_refl V SAME) as [TL T].
    split; [rewrite !app_length, TL; reflexivity|]. intros x ox g H1 H2. destruct (app_nth h o x ox H1) as [[-> ->] | O3].
    + rewrite <- TL in H2. rewrite nth_error_app2 in H2 by lia. rewrite Nat.sub_diag in H2. cbn in H2. injection H2 as <-. apply new_ghost; assumption.
    + rewrite nth_error_app1 in H2 by (rewrite TL; eapply nth_lt; exact O3). eapply T; eassumption.
Qed.
Lemma op_key_valid : forall op j, op_ok op -> op_key op = Some j -> valid_key j.
Proof. intros op j OK H. destruct op; try discriminate; injection H as <-; [apply OK | exact OK]. Qed.
Lemma run_ghosts : forall ops h gs h' gs', HInv h -> ghosts gs h -> Forall op_ok ops -> run_orders h gs ops = Done (h', gs') -> HInv h' /\ ghosts gs' h'.
Proof.
  induction ops as [|op ops IH]; intros h gs h' gs' HI G OK E.
  - injection E as <- <-. auto.
  - cbn [run_orders] in E. destruct (o_step h op) as [[h1 r]| |] eqn:S1; cbn [bind fst] in E; try discriminate.
    pose proof (done_effect h op h1 r HI (Forall_inv OK) S1) as EF.
    eapply (IH h1); [eapply effect_hinv; eassumption | | exact (Forall_inv_tail OK) | exact E].
    eapply effect_ghosts; [exact HI | exact G | exact EF|]. intros j. apply op_key_valid. exact (Forall_inv OK).
Qed.

(** ** the listing *)
Lemma index_keys_spec : forall s, Inv s -> index_keys s = SOk (map fst (lst (its s))).
Proof.
  intros s IV. pose proof (inv_shape s IV) as SH. pose proof (inv_le_max s IV) as LE. pose proof (inv_max_range s IV) as MR. unfold index_keys, shape in *.
  destruct (its s) as [[l|]|t] eqn:E; [| |reflexivity].
  - destruct SH as (L1 & L2 & L3). rewrite (proj2 (Z.eqb_neq (cap s) 0)) by lia. rewrite (proj2 (Z.ltb_lt (maxi s) (Z.of_nat (length l)))) by lia. cbn [lst] in *.
    f_equal. f_equal. apply entries_cut; [exact LE | lia].
  - destruct SH as [-> _]. reflexivity.
Qed.
Lemma filter_names : forall (f : nkey -> bool) g, filter (fun k => match k with KName n => f n | _ => false end) g = map KName (filter f (flat_map nm g)).
Proof.
  intros f g. induction g as [|[i|n] g IH]; [reflexivity | exact IH|]. cbn [filter flat_map nm app]. destruct (f n); cbn [map]; rewrite IH; reflexivity.
Qed.
Lemma own_keys_spec : forall o g, base o -> ghost g o -> exists ks, own_keys o = SOk ks /\ ordered_keys g ks /\ NoDup ks /\ (forall k, In k ks <-> look o k <> None).
Proof.
  intros o g B [GI GN GM]. unfold own_keys. rewrite (index_keys_spec _ (b_arr o B)). cbn [sbind].
  set (t := lst (its (arr o))). set (nl := map fst (named o)).
  assert (LEN : (length (filter is_str nl) + length (filter (fun n => negb (is_str n)) nl) = length nl)%nat).
  { clear. induction nl as [|n l IH]; [reflexivity|]. cbn [filter]. destruct (is_str n); cbn [negb length]; lia. }
  rewrite !app_length, !map_length. unfold nl in LEN at 3. rewrite map_length in LEN.
  rewrite (proj2 (Z.leb_le _ _)) by (rewrite (inv_num _ (b_arr o B)); fold t; lia).
  eexists. split; [reflexivity|].
  assert (IX : forall i, In i (map fst t) <-> look o (KIdx i) <> None).
  { intro i. cbn [look]. fold t. rewrite in_map_iff. split.
    - intros ((j & q) & E & H). cbn in E. subst j. rewrite (in_find t i q (inv_sorted _ (b_arr o B)) H). discriminate.
    - intro H. destruct (t_find t i) as [p|] eqn:F; [|contradiction]. exists (i, p). split; [reflexivity | apply find_in; exact F]. }
  assert (ST : StronglySorted Z.lt (map fst t)).
  { pose proof (inv_sorted _ (b_arr o B)) as S0. fold t in S0. clear - S0. induction S0 as [|e t S0 IH F]; [constructor|]. cbn [map]. constructor; [exact IH|].
    apply Forall_map. exact F. }
  split; [|split].
  - exists (map fst t). split; [intro i; rewrite IX, GI; reflexivity|]. split; [exact ST|]. f_equal.
    change (flat_map nm g = nl) in GM. rewrite <- GM. rewrite <- !filter_names.
    f_equal; apply filter_eq; intros [i|[n|n]] _; reflexivity.
  - assert (IJ : forall f l, NoDup l -> NoDup (map KName (filter f l))).
    { intros f l H. apply FinFun.Injective_map_NoDup; [intros a b E; congruence | apply NoDup_filter; exact H]. }
    assert (ND : NoDup nl) by apply (b_names o B).
    assert (APP : forall (l1 l2 : list key), NoDup l1 -> NoDup l2 -> (forall x, In x l1 -> ~ In x l2) -> NoDup (l1 ++ l2)).
    { clear. intros l1 l2 H1 H2 D. induction H1 as [|x l1 H H1 IH]; [exact H2|]. cbn. constructor.
      - rewrite in_app_iff. intros [H3 | H3]; [contradiction | apply (D x); [left; reflexivity | exact H3]].
      - apply IH. intros y Hy. apply D. right. exact Hy. }
    apply APP; [| apply APP; [apply IJ; exact ND | apply IJ; exact ND|] |].
    + apply FinFun.Injective_map_NoDup; [intros a b E; congruence|]. clear - ST. induction ST as [|i l S0 IH F]; constructor; [|exact IH].
      intro H. rewrite Forall_forall in F. specialize (F i H). lia.
    + intros x H1 H2. apply in_map_iff in H1, H2. destruct H1 as (a & <- & H1), H2 as (b & E & H2). injection E as ->. apply filter_In in H1, H2. destruct H1 as [_ H1], H2 as [_ H2].
      rewrite H1 in H2. discriminate.
    + intros x H1 H2. apply in_app_iff in H2. apply in_map_iff in H1. destruct H1 as (a & <- & _). destruct H2 as [H2 | H2]; apply in_map_iff in H2; destruct H2 as (b & E & _); discriminate.
  - intro k. rewrite !in_app_iff, !in_map_iff. destruct k as [i|n].
    + rewrite <- IX. split; [intros [(a & E & H) | [(a & E & H) | (a & E & H)]]; try discriminate; injection E as ->; exact H | intro H; left; exists i; auto].
    + rewrite <- GI, GI. assert (NN : look o (KName n) <> None <-> In n nl) by apply n_find_in. rewrite NN. split.
      * intros [(a & E & H) | [(a & E & H) | (a & E & H)]]; try discriminate; injection E as ->; apply filter_In in H; apply H.
      * intro H. right. destruct (is_str n) eqn:S0; [left | right]; exists n; (split; [reflexivity|]); apply filter_In; (split; [exact H|]); [exact S0 | rewrite S0; reflexivity].
Qed.

(** ** C05 *)
Lemma s_run_app : forall h1 h2 s, s_run s (h1 ++ h2) = sbind (s_run s h1) (fun s1 => s_run s1 h2).
Proof.
  induction h1 as [|o h1 IH]; intros h2 s; [reflexivity|]. cbn [app s_run]. destruct (s_step s o) as [s1| |]; cbn [sbind]; [apply IH | reflexivity | reflexivity].
Qed.
Lemma crash_exactly : forall h, Forall (fun o => valid_index (op_index o)) h ->
  (s_run empty_store h = SUB <->
   exists h1 i p h2 s1, h = h1 ++ Put i p :: h2 /\ s_run empty_store h1 = SOk s1 /\ its s1 = Tree [] /\ i < 3).
Proof.
  intros h V. split.
  - intro E. destruct (run_spec h empty_store empty_inv V) as [[_ H] | (s' & E' & _)]; [exact H | congruence].
  - intros (h1 & i & p & h2 & s1 & -> & E1 & T & L). rewrite s_run_app, E1. cbn [sbind s_run]. apply Forall_app in V. destruct V as [V1 V2]. pose proof (Forall_inv V2) as VI. cbn [op_index] in VI.
    destruct (run_spec h1 empty_store empty_inv V1) as [[E _] | (s' & E' & IV & _)]; [congruence|]. rewrite E1 in E'. injection E' as <-.
    unfold s_step. cbn [op_index]. rewrite (lookup_spec s1 i IV VI), T. cbn [lst t_find sbind]. rewrite (add_crash s1 i p IV T) by (unfold valid_index in VI; lia). reflexivity.
Qed.
Lemma finite_map : forall h s, Forall (fun o => valid_index (op_index o)) h -> s_run empty_store h = SOk s ->
  (forall i, valid_index i -> s_lookup s i = SOk (spec_run h i)) /\
  exists ix, index_keys s = SOk ix /\ StronglySorted Z.lt ix /\ (forall i, In i ix <-> spec_run h i <> None).
Proof.
  intros h s V E. destruct (run_spec h empty_store empty_inv V) as [[E1 _] | (s' & E' & IV & L)]; [congruence|]. rewrite E in E'. injection E' as <-.
  assert (LF : forall j, t_find (lst (its s)) j = spec_run h j) by (intro j; rewrite L; reflexivity).
  split; [intros i VI; rewrite (lookup_spec s i IV VI), LF; reflexivity|]. exists (map fst (lst (its s))). split; [apply index_keys_spec; exact IV|].
  pose proof (inv_sorted s IV) as ST. split.
  - clear - ST. induction ST as [|e t S0 IH F]; [constructor|]. cbn [map]. constructor; [exact IH | apply Forall_map; exact F].
  - intro i. rewrite <- LF, in_map_iff. split.
    + intros ((j & q) & EJ & H). cbn in EJ. subst j. rewrite (in_find _ i q ST H). discriminate.
    + intro H. destruct (t_find (lst (its s)) i) as [q|] eqn:F; [|contradiction]. exists (i, q). split; [reflexivity | apply find_in; exact F].
Qed.
