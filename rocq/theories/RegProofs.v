(** The machine of RegModel.v runs the matchers of RegSpec.v: a continuation of
    the standard is a chain of jobs, a failure unwinds the stack to where it was. *)
From Coq Require Import ZArith List Bool Arith Lia.
Import ListNotations.
From Verif Require Import RegModel RegSpec RegBase.
Local Open Scope nat_scope.

(** the character tests of the code *)
Definition code_member (E : env) (a : atom) (c : Z) : bool :=
  match a with
  | AChar k => match_char E k c
  | AAll => fl_s E || negb (is_line_terminator c)
  | AClass neg items => match_class E neg items c
  | _ => false
  end.
Definition vcap (v : list Z) (i : nat) : option (Z * Z) :=
  let s := vget v (2 * i) in
  let t := vget v (2 * i + 1) in
  if ((s =? -1) || (t =? -1))%Z then None else Some (Z.min s t, Z.max s t).

Ltac spl := repeat match goal with |- _ /\ _ => split end.
Section sim.
  Variables (E : env) (W : world) (off : nat -> nat).
  Notation G := (group_num E).
  Notation L2 := (2 * group_num E).
  Notation n := (inlen W).
  Hypothesis Hng : ngroups W = G.
  Hypothesis Hnames : names W = group_names E.
  Hypothesis Hmem : forall a c, member W a c = code_member E a c.
  Hypothesis Hmono : forall i j, i < j -> j <= n -> off i < off j.
  Hypothesis Hlast : off n = length (str E).
  Hypothesis Hzero : off 0 = 0.
  Hypothesis Hfwd : forall i, i < n -> read_char E false (off i) = Some (char_at W i, off (S i)).
  Hypothesis Hbwd : forall i, i < n -> read_char E true (off (S i)) = Some (char_at W i, off i).
  Hypothesis Hstart : forall i, i <= n ->
    let c := get_char E (Z.of_nat (off i) - 1) in
    ((c =? -1)%Z || (fl_m E && is_line_terminator c)) = at_start W i.
  Hypothesis Hend : forall i, i <= n ->
    let c := get_char E (Z.of_nat (off i)) in
    ((c =? -1)%Z || (fl_m E && is_line_terminator c)) = at_end W i.
  Hypothesis Hwb : forall i, i <= n -> is_word (get_char E (Z.of_nat (off i) - 1)) = word_before W i.
  Hypothesis Hwa : forall i, i <= n -> is_word (get_char E (Z.of_nat (off i))) = word_at W i.
  (** one character is one code unit *)
  Definition flat : Prop :=
    (forall i, i <= n -> off i = i) /\
    forall i, i < n -> canon W (char_at W i) = canonicalize E (unit_at E i).

  Lemma off_inj : forall i j, i <= n -> j <= n -> off i = off j -> i = j.
  Proof.
    intros i j A B H. destruct (lt_eq_lt_dec i j) as [[C|C]|C]; auto.
    - specialize (Hmono i j C B). lia.
    - specialize (Hmono j i C A). lia.
  Qed.
  Lemma off_le : forall i j, i <= j -> j <= n -> off i <= off j.
  Proof.
    intros i j A B. destruct (Nat.eq_dec i j) as [->|N]; auto.
    specialize (Hmono i j). lia.
  Qed.

  Definition offc (r : option (nat * nat)) : option (Z * Z) :=
    match r with None => None | Some (a, b) => Some (Z.of_nat (off a), Z.of_nat (off b)) end.
  Definition rep (x : state) (p : nat) (v : list Z) : Prop :=
    p = off (e x) /\ e x <= n /\ length (cs x) = G /\
    (forall i, i < G -> vcap v i = offc (cap (cs x) i)) /\
    (forall i a b, cap (cs x) i = Some (a, b) -> a <= b /\ b <= n).

  Lemma cap_clear : forall gs ge l i, i < length l ->
    cap (clear_caps gs ge l) i = if (gs <=? i) && (i <? ge) then None else cap l i.
  Proof.
    intros gs ge l i H. unfold cap, clear_caps.
    rewrite (nth_indep _ None ((fun i => if (gs <=? i) && (i <? ge) then None else nth i l None) 0))
      by (rewrite map_length, seq_length; auto).
    unfold cap. rewrite (map_nth (fun i => if (gs <=? i) && (i <? ge) then None else nth i l None)).
    rewrite seq_nth by auto. reflexivity.
  Qed.
  Lemma cap_out : forall l i, length l <= i -> cap l i = None.
  Proof. intros. unfold cap. apply nth_overflow. auto. Qed.
  Lemma clear_caps_length : forall gs ge l, length (clear_caps gs ge l) = length l.
  Proof. intros. unfold clear_caps. rewrite map_length, seq_length. reflexivity. Qed.
  Lemma rep_clear : forall x p v gs ge, rep x p v ->
    rep (St (e x) (clear_caps gs ge (cs x))) p (clear_vec gs ge v).
  Proof.
    intros x p v gs ge (A & B & C & D & F). unfold rep. cbn [e cs].
    repeat split; auto.
    - rewrite clear_caps_length. auto.
    - intros i Hi. rewrite cap_clear by lia. specialize (D i Hi). unfold vcap in *.
      rewrite !vget_clear.
      destruct (Nat.leb_spec gs i); destruct (Nat.ltb_spec i ge); cbn [andb];
        destruct (Nat.leb_spec (2 * gs) (2 * i)); destruct (Nat.ltb_spec (2 * i) (2 * ge));
        destruct (Nat.leb_spec (2 * gs) (2 * i + 1)); destruct (Nat.ltb_spec (2 * i + 1) (2 * ge));
        cbn [andb]; try lia; auto.
    - destruct (Nat.lt_ge_cases i (length (cs x))) as [Hi|Hi].
      + rewrite cap_clear in H by auto. destruct ((gs <=? i) && (i <? ge)); [discriminate|].
        apply (F i a b H).
      + rewrite cap_out in H by (rewrite clear_caps_length; auto). discriminate.
    - destruct (Nat.lt_ge_cases i (length (cs x))) as [Hi|Hi].
      + rewrite cap_clear in H by auto. destruct ((gs <=? i) && (i <? ge)); [discriminate|].
        apply (F i a b H).
      + rewrite cap_out in H by (rewrite clear_caps_length; auto). discriminate.
  Qed.
  Lemma rep_clear_unset : forall x p v gs ge, rep x p v -> unset gs ge v ->
    rep (St (e x) (clear_caps gs ge (cs x))) p v.
  Proof.
    intros. rewrite <- (clear_back gs ge v v) at 1; auto using sameout_refl, rep_clear.
  Qed.
  Lemma cap_set : forall l i j r, cap (set_cap l i r) j = if (i =? j) && (i <? length l) then r else cap l j.
  Proof.
    unfold cap. induction l as [|a l IH]; intros i j r.
    - destruct i; simpl; rewrite andb_false_r; reflexivity.
    - destruct i as [|i]; destruct j as [|j]; simpl; auto.
      rewrite IH. destruct (i =? j); auto.
  Qed.
  Lemma set_cap_length : forall l i r, length (set_cap l i r) = length l.
  Proof. induction l; intros [|i] r; simpl; auto. Qed.

  (** * runs *)
  Inductive star : cfg -> cfg -> Prop :=
    | star_refl : forall s, star s s
    | star_step : forall s s1 s2, step E s = Go s1 -> star s1 s2 -> star s s2.
  Lemma star_trans : forall a b c, star a b -> star b c -> star a c.
  Proof. induction 1; auto. intros. econstructor; eauto. Qed.

  Record seg := { lo : nat; hi : nat; vs : list Z; acc : state -> cfg -> Prop }.
  Definition good (s : cfg) : Prop :=
    length (vec s) = L2 /\ vnum s = vcount L2 (jobs s) /\ vnum s <= length (vmem s) /\ vsps L2 (jobs s).
  (** the stack is as it was, the machine rejects *)
  Definition rej (sg : seg) (js : list job) (vn : nat) (r0 : bool) (vm : list Z) (s : cfg) : Prop :=
    k s = KRes Reject /\ jobs s = js /\ vnum s = vn /\ rv s = r0 /\ agree vn vm (vmem s) /\
    length (vec s) = L2 /\ vn <= length (vmem s) /\ sameout (lo sg) (hi sg) (vs sg) (vec s).
  Definition outc (sg : seg) (s : cfg) (js : list job) (vn : nat) (r0 : bool) (vm : list Z) (r : mr) : Prop :=
    match r with
    | Found y => exists s', star s s' /\ acc sg y s'
    | Failure => exists s', star s s' /\ rej sg js vn r0 vm s'
    | Out => True
    end.
  Definition outcome (sg : seg) (s : cfg) (r : mr) : Prop :=
    outc sg s (jobs s) (vnum s) (rv s) (vmem s) r.
  Definition plain (j : job) : bool :=
    match j with JOk | JGroupEnd _ _ | JTerm _ _ _ _ | JTermList _ _ => true | _ => false end.
  Definition nolook (j : job) : bool := match j with JLook _ _ _ _ _ _ => false | _ => true end.
  Definition contok (sg : seg) (fwd : bool) (gs ge : nat) (v0 : list Z) (np : option nat)
      (c : cont) (js : list job) (vm : list Z) : Prop :=
    forall s x T, k s = KRes Next -> nextp s = np -> jobs s = js ++ T -> forallb nolook T = true ->
      rv s = negb fwd -> good s -> agree (vcount L2 js) vm (vmem s) ->
      rep x (pos s) (vec s) -> sameout gs ge v0 (vec s) -> outcome sg s (c x).

  Lemma o_star : forall sg s s1 js vn r0 vm r, star s s1 -> outc sg s1 js vn r0 vm r -> outc sg s js vn r0 vm r.
  Proof.
    intros sg s s1 js vn r0 vm [|y|] H O; simpl in *; auto;
      destruct O as (s' & A & B); exists s'; split; auto; eapply star_trans; eauto.
  Qed.
  Lemma o_step : forall sg s s1 js vn r0 vm r, step E s = Go s1 -> outc sg s1 js vn r0 vm r -> outc sg s js vn r0 vm r.
  Proof. intros. eapply o_star; eauto. econstructor; eauto. constructor. Qed.
  Lemma o_mem : forall sg s js vn r0 vm vm' r, agree vn vm' vm -> outc sg s js vn r0 vm r -> outc sg s js vn r0 vm' r.
  Proof.
    intros sg s js vn r0 vm vm' [|y|] A O; simpl in *; auto.
    destruct O as (s' & B & C). exists s'. split; auto. unfold rej in *.
    destruct C as (C1 & C2 & C3 & C4 & C5 & C6 & C7 & C8). spl; auto.
    eapply agree_trans; eauto.
  Qed.
  Lemma step_pop : forall s js j r, k s = KRes r -> (r = Reject \/ r = Accept) -> jobs s = js ++ [j] ->
    step E s = run_job (Cfg (k s) (pos s) (rv s) (vec s) (nextp s) js (vmem s)
                            (match job_vsp j with Some v => v | None => vnum s end)) j r.
  Proof.
    intros s js j r K R J. unfold step. rewrite K, J, pop_last_snoc.
    assert (N : js ++ [j] <> []) by (destruct js; discriminate).
    destruct R as [-> | ->]; destruct (js ++ [j]); congruence.
  Qed.
  Lemma step_next : forall s i j, k s = KRes Next -> nextp s = Some i -> nth_error (jobs s) i = Some j ->
    step E s = run_job (Cfg (k s) (pos s) (rv s) (vec s) (job_next j) (jobs s) (vmem s) (vnum s)) j Next.
  Proof.
    intros s i j K N J. unfold step. rewrite K, N, J.
    destruct (jobs s); [destruct i; discriminate|]. reflexivity.
  Qed.
  Lemma o_push : forall sg s js j vn r0 vm r, plain j = true ->
    outc sg s (js ++ [j]) vn r0 vm r -> outc sg s js vn r0 vm r.
  Proof.
    intros sg s js j vn r0 vm [|y|] P O; simpl in *; auto.
    destruct O as (s' & A & (K & J & V & R & M & L & B & S)).
    pose proof (step_pop s' js j Reject K (or_introl eq_refl) J) as Hs.
    destruct j; try discriminate; cbn [run_job job_vsp] in Hs; unfold res in Hs; cbn in Hs;
      (eexists; split; [eapply star_trans; [exact A|]; econstructor; [exact Hs|constructor]|]);
      unfold rej; cbn [k jobs vnum rv vmem vec]; spl; auto.
  Qed.
  (** a choice point was pushed: when the first way fails, its job is run with the
      vector saved in it *)
  Lemma o_choice : forall sg s js j vn r0 vm v r1 r2,
    job_vsp j = Some vn -> vn <= length vm -> length v = L2 ->
    outc sg s (js ++ [j]) (vn + L2) r0 (save vm vn v) r1 ->
    (forall s', jobs s' = js -> vnum s' = vn -> rv s' = r0 -> agree vn vm (vmem s') ->
       vn <= length (vmem s') -> length (vec s') = L2 ->
       restore (vmem s') vn (length (vec s')) = Some v ->
       exists s2, run_job s' j Reject = Go s2 /\ outc sg s2 js vn r0 vm r2) ->
    outc sg s js vn r0 vm (match r1 with Failure => r2 | Found y => Found y | Out => Out end).
  Proof.
    intros sg s js j vn r0 vm v [|y|] r2 J L Lv O H; auto.
    cbn [outc] in O. destruct O as (s' & A & (K & Js & V & R & M & Lv' & B & S)).
    pose proof (step_pop s' js j Reject K (or_introl eq_refl) Js) as Hs. rewrite J in Hs.
    match type of Hs with _ = run_job ?s0 _ _ => destruct (H s0) as (s2 & Q & O2) end;
      cbn [jobs vnum rv vmem vec]; auto.
    - apply agree_trans with (save vm vn v). { apply agree_save. auto. }
      eapply agree_less; [|exact M]. lia.
    - lia.
    - rewrite Lv', <- Lv. apply restore_save with vm; auto; rewrite Lv; auto.
    - rewrite Q in Hs. eapply o_star; [exact A|]. eapply o_step; [exact Hs|]. exact O2.
  Qed.

  Lemma contok_ext : forall sg fwd gs ge v0 np c js vm js' T vm',
    contok sg fwd gs ge v0 np c js vm -> js' = js ++ T -> forallb nolook T = true ->
    agree (vcount L2 js) vm vm' -> contok sg fwd gs ge v0 np c js' vm'.
  Proof.
    intros sg fwd gs ge v0 np c js vm js' T vm' C -> NT A s x T' K N J N' R Gd Ag Re So.
    apply (C s x (T ++ T')); auto.
    - rewrite J, app_assoc. reflexivity.
    - rewrite forallb_app, NT, N'. reflexivity.
    - eapply agree_trans; [exact A|]. eapply agree_less; [|exact Ag]. rewrite vcount_app. lia.
  Qed.
  Lemma contok_narrow : forall sg fwd gs ge v0 np c js vm a b v1,
    contok sg fwd gs ge v0 np c js vm -> gs <= a -> b <= ge -> sameout gs ge v0 v1 ->
    contok sg fwd a b v1 np c js vm.
  Proof.
    intros sg fwd gs ge v0 np c js vm a b v1 C A B So s x T K N J N' R Gd Ag Re So'.
    apply (C s x T); auto. eapply sameout_trans; [exact So|].
    eapply sameout_wide; [| |exact So']; auto.
  Qed.

  (** what holds on entry to a part of the pattern with the groups [gs..ge) *)
  Definition pre (sg : seg) (fwd : bool) (gs ge : nat) (x : state) (s : cfg) : Prop :=
    rv s = negb fwd /\ good s /\ rep x (pos s) (vec s) /\ unset gs ge (vec s) /\
    lo sg <= gs /\ gs <= ge /\ ge <= hi sg /\ hi sg <= G /\ 1 <= lo sg /\
    sameout (lo sg) (hi sg) (vs sg) (vec s).
  Definition Pa (a : atom) : Prop :=
    forall t sg fwd gs ge x s c, t_atom t = a -> t_gs t = gs -> t_ge t = ge ->
      num_atom a gs = Some ge -> (flat \/ no_back a = true) ->
      k s = KAtom t -> pre sg fwd gs ge x s ->
      contok sg fwd gs ge (vec s) (nextp s) c (jobs s) (vmem s) ->
      outcome sg s (m_atom W true a fwd x c).
  Definition Qt (t : term) : Prop :=
    forall sg fwd gs ge x s c, num_term t gs = Some ge -> (flat \/ no_back_t t = true) ->
      k s = KTerm t 1 None -> pre sg fwd gs ge x s ->
      contok sg fwd gs ge (vec s) (nextp s) c (jobs s) (vmem s) ->
      outcome sg s (m_term W true t fwd x c).

  (** the continuation is called with the same stack *)
  Lemma use_cont : forall sg fwd gs ge v0 np c js vm s x, contok sg fwd gs ge v0 np c js vm ->
    k s = KRes Next -> nextp s = np -> jobs s = js -> rv s = negb fwd -> good s ->
    agree (vcount L2 js) vm (vmem s) -> rep x (pos s) (vec s) -> sameout gs ge v0 (vec s) ->
    outcome sg s (c x).
  Proof.
    intros. apply (H s x []); auto. rewrite app_nil_r. auto.
  Qed.
  Lemma reject_now : forall sg s, k s = KRes Reject -> good s ->
    sameout (lo sg) (hi sg) (vs sg) (vec s) -> outcome sg s Failure.
  Proof.
    intros sg s K (L & V & B & S) So. exists s. split; [constructor|].
    unfold rej. spl; auto using agree_refl.
  Qed.

  Lemma o_goto : forall sg s s1 r, step E s = Go s1 -> jobs s1 = jobs s -> vnum s1 = vnum s ->
    rv s1 = rv s -> agree (vnum s) (vmem s) (vmem s1) -> outcome sg s1 r -> outcome sg s r.
  Proof.
    unfold outcome. intros sg s s1 r Hs J V R A O. eapply o_step; [exact Hs|].
    rewrite J, V, R in O. eapply o_mem; eauto.
  Qed.
  (** * single characters and assertions *)
  Lemma rep_move : forall x p v i, rep x p v -> i <= n -> rep (St i (cs x)) (off i) v.
  Proof. intros x p v i (A & B & C & D & F) H. repeat split; auto; eapply F; eauto. Qed.
  Ltac leaf := intros; unfold outcome.
  Lemma atom_set : forall a t sg fwd gs ge x s c, t_atom t = a ->
    match a with AChar _ | AAll | AClass _ _ => True | _ => False end ->
    k s = KAtom t -> pre sg fwd gs ge x s ->
    contok sg fwd gs ge (vec s) (nextp s) c (jobs s) (vmem s) ->
    outcome sg s (set_matcher W a fwd x c).
  Proof.
    intros a t sg fwd gs ge x s c Ta Ca K (R & Gd & Re & U & P1 & P2 & P3 & P4 & P5 & So) C.
    assert (Hs : step E s = match read_char E (rv s) (pos s) with
        | None => res Reject s
        | Some (ch, p) => Go (Cfg (KRes (if code_member E a ch then Next else Reject)) p (rv s) (vec s) (nextp s) (jobs s) (vmem s) (vnum s))
        end).
    { unfold step. rewrite K. unfold atom_step. rewrite Ta. destruct a; try tauto; reflexivity. }
    pose proof Re as (Rp & Rn & _). rewrite R, Rp in Hs. unfold set_matcher.
    assert (Go1 : forall ch i, i <= n ->
      step E s = Go (Cfg (KRes (if code_member E a ch then Next else Reject)) (off i) (negb fwd) (vec s) (nextp s) (jobs s) (vmem s) (vnum s)) ->
      outcome sg s (if member W a ch then c (St i (cs x)) else Failure)).
    { intros ch i Hi Q. eapply o_goto; [exact Q|cbn; auto using agree_refl..|]. rewrite Hmem. destruct (code_member E a ch).
      - match goal with |- outcome _ ?s1 _ => apply (use_cont sg fwd gs ge (vec s) (nextp s) c (jobs s) (vmem s) s1 (St i (cs x)) C) end;
          cbn; auto using agree_refl, sameout_refl.
        eapply rep_move; eauto.
      - match goal with |- outcome _ ?s1 _ => apply (reject_now sg s1) end; cbn; auto. }
    destruct fwd; cbn [negb] in *.
    - destruct (Nat.ltb_spec (e x) n) as [Hlt|Hge].
      + rewrite Hfwd in Hs by auto. apply Go1; [lia|]. rewrite Nat.add_1_r. exact Hs.
      + replace (e x) with n in Hs by lia. rewrite Hlast in Hs.
        assert (N : read_char E false (length (str E)) = None).
        { unfold read_char. rewrite Nat.leb_refl. reflexivity. }
        rewrite N in Hs. eapply o_goto; [exact Hs|cbn; auto using agree_refl..|].
        match goal with |- outcome _ ?s1 _ => apply (reject_now sg s1) end; cbn; auto.
    - destruct (e x) as [|i] eqn:Ei.
      + rewrite Hzero in Hs. unfold read_char in Hs. eapply o_goto; [exact Hs|cbn; auto using agree_refl..|].
        match goal with |- outcome _ ?s1 _ => apply (reject_now sg s1) end; cbn; auto.
      + rewrite Hbwd in Hs by lia. apply Go1; [lia|]. exact Hs.
  Qed.
  Lemma atom_check : forall (b : bool) (t : term) sg fwd gs ge x s c,
    step E s = res (if b then Next else Reject) s ->
    k s = KAtom t -> pre sg fwd gs ge x s ->
    contok sg fwd gs ge (vec s) (nextp s) c (jobs s) (vmem s) ->
    outcome sg s (assertion b x c).
  Proof.
    intros b t sg fwd gs ge x s c Hs K (R & Gd & Re & U & P1 & P2 & P3 & P4 & P5 & So) C.
    unfold res in Hs. eapply o_goto; [exact Hs|cbn; auto using agree_refl..|]. unfold assertion. destruct b.
    - match goal with |- outcome _ ?s1 _ => apply (use_cont sg fwd gs ge (vec s) (nextp s) c (jobs s) (vmem s) s1 x C) end;
        cbn; auto using agree_refl, sameout_refl.
    - match goal with |- outcome _ ?s1 _ => apply (reject_now sg s1) end; cbn; auto.
  Qed.

  (** * back references *)
  Definition back_to (r : option (nat * nat)) (fwd : bool) (x : state) : option nat :=
    match r with
    | None => Some (e x)
    | Some (rs, re) =>
        let len := re - rs in
        if fwd then
          if e x + len <=? n then
            if forallb (fun i => Z.eqb (canon W (char_at W (rs + i))) (canon W (char_at W (e x + i)))) (seq 0 len)
            then Some (e x + len) else None
          else None
        else
          if len <=? e x then
            if forallb (fun i => Z.eqb (canon W (char_at W (rs + i))) (canon W (char_at W (e x - len + i)))) (seq 0 len)
            then Some (e x - len) else None
          else None
    end.
  Lemma back_matcher_to : forall r fwd x c, back_matcher W r fwd x c =
    match back_to r fwd x with Some i => c (St i (cs x)) | None => Failure end.
  Proof.
    intros [[rs re]|] fwd x c; unfold back_matcher, back_to.
    - destruct fwd.
      + destruct (_ <=? _); auto. destruct (forallb _ _); auto.
      + destruct (_ <=? _); auto. destruct (forallb _ _); auto.
    - destruct x. reflexivity.
  Qed.
  Lemma forallb_ext_in : forall (l : list nat) f g, (forall i, In i l -> f i = g i) -> forallb f l = forallb g l.
  Proof.
    induction l as [|a l IH]; intros f g H; simpl; auto.
    rewrite H by (left; auto). f_equal. apply IH. intros. apply H. right; auto.
  Qed.
  Lemma str_len : flat -> length (str E) = n.
  Proof. intros [F _]. rewrite <- Hlast. auto. Qed.
  Lemma back_to_ok : forall x p v fwd id, flat -> rep x p v ->
    match_back_ref E (negb fwd) p v id = back_to (cap (cs x) id) fwd x /\
    forall i, back_to (cap (cs x) id) fwd x = Some i -> i <= n.
  Proof.
    intros x p v fwd id F (A & B & C & D & Bd). pose proof (str_len F) as SL. destruct F as [F1 F2].
    rewrite F1 in A by auto. subst p. unfold match_back_ref.
    destruct (Nat.leb_spec G id) as [H|H].
    { rewrite cap_out by lia. simpl. split; auto. intros i Q. injection Q as <-. auto. }
    specialize (D id H). specialize (Bd id). unfold vcap in D.
    destruct (((vget v (2 * id) =? -1) || (vget v (2 * id + 1) =? -1))%Z) eqn:N.
    { destruct (cap (cs x) id) as [[a b]|]; [discriminate|]. simpl. split; auto. intros i Q. injection Q as <-. auto. }
    destruct (cap (cs x) id) as [[rs re]|]; [|discriminate].
    destruct (Bd rs re eq_refl) as [B1 B2].
    cbn [offc] in D. rewrite !F1 in D by lia.
    set (s := vget v (2 * id)) in *. set (t := vget v (2 * id + 1)) in *. clearbody s t. injection D as D1 D2.
    assert (M : (if (t <? s)%Z then (t, s) else (s, t)) = (Z.of_nat rs, Z.of_nat re)).
    { destruct (Z.ltb_spec t s) as [Hts|Hts]; apply f_equal2; lia. }
    rewrite M. replace (Z.to_nat (Z.of_nat re - Z.of_nat rs)) with (re - rs) by lia. rewrite Nat2Z.id.
    unfold back_to. rewrite SL. set (len := re - rs) in *. destruct fwd; cbn [negb].
    - destruct (Nat.ltb_spec n (e x + len)); destruct (Nat.leb_spec (e x + len) n); try lia.
      { split; auto. intros; discriminate. }
      rewrite (forallb_ext_in _ _ (fun i => Z.eqb (canon W (char_at W (rs + i))) (canon W (char_at W (e x + i))))).
      + destruct (forallb _ _); split; auto; intros i Q; [injection Q as <-; lia|discriminate].
      + intros i Hi. apply in_seq in Hi. unfold same_unit. rewrite Z.eqb_sym.
        rewrite !F2 by lia. reflexivity.
    - destruct (Nat.ltb_spec (e x) len); destruct (Nat.leb_spec len (e x)); try lia.
      { split; auto. intros; discriminate. }
      rewrite (forallb_ext_in _ _ (fun i => Z.eqb (canon W (char_at W (rs + i))) (canon W (char_at W (e x - len + i))))).
      + destruct (forallb _ _); split; auto; intros i Q; [injection Q as <-; lia|discriminate].
      + intros i Hi. apply in_seq in Hi. unfold same_unit. rewrite Z.eqb_sym.
        rewrite !F2 by lia. reflexivity.
  Qed.
  Lemma named_find : forall (nid : Z) l ns j f, (0 <= nid)%Z ->
    (forall i, i < length l -> f (j + i) = (nth i ns (-1) =? nid)%Z && match nth i l None with Some _ => true | None => false end) ->
    match find f (seq j (length l)) with
    | None => named_cap l ns nid = None
    | Some i => exists i', i = j + i' /\ i' < length l /\ named_cap l ns nid = nth i' l None
    end.
  Proof.
    intros nid. induction l as [|r l IH]; intros ns j f N H; [reflexivity|].
    cbn [length seq find]. pose proof (H 0 ltac:(simpl; lia)) as H0. rewrite Nat.add_0_r in H0. cbn [nth] in H0.
    assert (Hr : forall ns', (forall i, nth (S i) ns (-1)%Z = nth i ns' (-1)%Z) ->
      match find f (seq (S j) (length l)) with
      | None => named_cap l ns' nid = None
      | Some i => exists i', i = j + i' /\ i' < S (length l) /\ named_cap l ns' nid = nth i' (r :: l) None
      end).
    { intros ns' Hn. specialize (IH ns' (S j) f N).
      assert (Q : forall i, i < length l -> f (S j + i) = (nth i ns' (-1) =? nid)%Z && match nth i l None with Some _ => true | None => false end).
      { intros i Hi. replace (S j + i) with (j + S i) by lia. rewrite H by (simpl; lia). rewrite Hn. reflexivity. }
      specialize (IH Q). destruct (find f _) as [i|]; auto.
      destruct IH as (i' & A & B & C). exists (S i'). repeat split; try lia. exact C. }
    destruct ns as [|a ns]; cbn [nth] in H0.
    - destruct (Z.eqb_spec (-1) nid); [lia|]. cbn [andb] in H0. rewrite H0.
      specialize (Hr [] ltac:(intros [|i]; reflexivity)). cbn [named_cap].
      destruct (find f _); [|reflexivity].
      destruct Hr as (i' & A & B & C). exists i'. repeat split; auto. rewrite <- C. destruct l; reflexivity.
    - cbn [named_cap]. destruct (Z.eqb a nid); cbn [andb] in H0.
      + destruct r; rewrite H0.
        * exists 0. repeat split; simpl; lia.
        * apply Hr. reflexivity.
      + rewrite H0. apply Hr. reflexivity.
  Qed.
  Lemma atom_jump : forall r t sg fwd gs ge x s c,
    step E s = match back_to r fwd x with
               | None => res Reject s
               | Some p => Go (Cfg (KRes Next) p (rv s) (vec s) (nextp s) (jobs s) (vmem s) (vnum s))
               end ->
    flat -> (forall i, back_to r fwd x = Some i -> i <= n) ->
    k s = KAtom t -> pre sg fwd gs ge x s ->
    contok sg fwd gs ge (vec s) (nextp s) c (jobs s) (vmem s) ->
    outcome sg s (back_matcher W r fwd x c).
  Proof.
    intros r t sg fwd gs ge x s c Hs F Bd K (R & Gd & Re & U & P1 & P2 & P3 & P4 & P5 & So) C.
    rewrite back_matcher_to. destruct (back_to r fwd x) as [i|].
    - eapply o_goto; [exact Hs|cbn; auto using agree_refl..|].
      match goal with |- outcome _ ?s1 _ => apply (use_cont sg fwd gs ge (vec s) (nextp s) c (jobs s) (vmem s) s1 (St i (cs x)) C) end;
        cbn; auto using agree_refl, sameout_refl.
      specialize (Bd i eq_refl). destruct F as [F1 _]. rewrite <- (F1 i Bd) at 2. eapply rep_move; eauto.
    - unfold res in Hs. eapply o_goto; [exact Hs|cbn; auto using agree_refl..|].
      match goal with |- outcome _ ?s1 _ => apply (reject_now sg s1) end; cbn; auto.
  Qed.
  Lemma atom_back : forall id, Pa (ABack id).
  Proof.
    intros id t sg fwd gs ge x s c Ta Tg Te N Fl K P C. destruct Fl as [Fl|Fl]; [|discriminate].
    assert (R : rv s = negb fwd) by apply P. assert (Re : rep x (pos s) (vec s)) by apply P.
    destruct (back_to_ok x (pos s) (vec s) fwd id Fl Re) as [Q1 Q2].
    apply (atom_jump (cap (cs x) id) t sg fwd gs ge x s c); auto.
    unfold step. rewrite K. unfold atom_step. rewrite Ta, R, Q1. reflexivity.
  Qed.
  Lemma atom_name : forall nid, Pa (AName nid).
  Proof.
    intros nid t sg fwd gs ge x s c Ta Tg Te N Fl K P C. destruct Fl as [Fl|Fl]; [|discriminate].
    assert (R : rv s = negb fwd) by apply P. assert (Re : rep x (pos s) (vec s)) by apply P.
    assert (Hn : (0 <= nid)%Z). { simpl in N. destruct (Z.ltb_spec nid 0); [discriminate|auto]. }
    pose proof (named_find nid (cs x) (group_names E) 0
      (fun i => (nth i (group_names E) (-1) =? nid)%Z && negb (vget (vec s) (2 * i) =? -1)%Z && negb (vget (vec s) (2 * i + 1) =? -1)%Z) Hn) as Q.
    pose proof Re as (A & B & Lc & D & Bd). rewrite Lc in Q. cbn [plus] in Q.
    assert (Q0 : forall i, i < G ->
      (nth i (group_names E) (-1) =? nid)%Z && negb (vget (vec s) (2 * i) =? -1)%Z && negb (vget (vec s) (2 * i + 1) =? -1)%Z =
      (nth i (group_names E) (-1) =? nid)%Z && match nth i (cs x) None with Some _ => true | None => false end).
    { intros i Hi. rewrite <- andb_assoc. f_equal. specialize (D i Hi). unfold vcap, cap in D.
      rewrite <- negb_orb. destruct (_ || _); destruct (nth i (cs x) None) as [[? ?]|]; auto; discriminate. }
    specialize (Q Q0). change (find _ (seq 0 G)) with (named_group E (vec s) nid) in Q.
    cbn [m_atom]. rewrite Hnames.
    assert (Hs : step E s = match named_group E (vec s) nid with
        | None => res Next s
        | Some i => match match_back_ref E (rv s) (pos s) (vec s) i with
                    | None => res Reject s
                    | Some p => Go (Cfg (KRes Next) p (rv s) (vec s) (nextp s) (jobs s) (vmem s) (vnum s))
                    end
        end).
    { unfold step. rewrite K. unfold atom_step. rewrite Ta. reflexivity. }
    destruct (named_group E (vec s) nid) as [i|].
    - destruct Q as (i' & -> & Hi & ->). cbn [plus] in Hs. fold (cap (cs x) i').
      destruct (back_to_ok x (pos s) (vec s) fwd i' Fl Re) as [Q1 Q2].
      apply (atom_jump (cap (cs x) i') t sg fwd gs ge x s c); auto.
      rewrite Hs, R, Q1. reflexivity.
    - rewrite Q. apply (atom_jump None t sg fwd gs ge x s c); auto.
      + rewrite Hs. unfold back_to, res. destruct Fl as [F1 _]. rewrite A, F1 by auto. reflexivity.
      + intros i H. injection H as <-. auto.
  Qed.

  (** * terms in a row *)
  Lemma good_push : forall s j c p r v np, good s -> job_vsp j = None -> length v = L2 ->
    good (Cfg c p r v np (jobs s ++ [j]) (vmem s) (vnum s)).
  Proof.
    intros s j c p r v np (A & B & C & D) J L. unfold good. cbn [vec vnum jobs vmem]. spl; auto.
    - rewrite vcount_app. unfold vcount at 2. cbn [filter]. unfold is_choice. rewrite J. cbn [length]. lia.
    - apply vsps_snoc; auto. congruence.
  Qed.
  Lemma good_saved : forall s j c p r np, good s -> job_vsp j = Some (vnum s) ->
    good (Cfg c p r (vec s) np (jobs s ++ [j]) (save (vmem s) (vnum s) (vec s)) (vnum s + length (vec s))).
  Proof.
    intros s j c p r np (A & B & C & D) J. unfold good. cbn [vec vnum jobs vmem]. spl; auto.
    - rewrite vcount_app. unfold vcount at 2. cbn [filter]. unfold is_choice. rewrite J. cbn [length]. lia.
    - apply save_length. auto.
    - apply vsps_snoc; auto. congruence.
  Qed.
  Lemma good_with : forall s c p r v np, good s -> length v = L2 -> good (Cfg c p r v np (jobs s) (vmem s) (vnum s)).
  Proof. intros s c p r v np (A & B & C & D) L. unfold good. cbn. auto. Qed.

  Definition chain (fwd : bool) (ts : list term) : matcher :=
    in_row fwd (map (fun t => m_term W true t fwd) (if fwd then ts else rev ts)).
  Lemma in_row_back : forall l m x c, in_row false (l ++ [m]) x c = m x (fun y => in_row false l y c).
  Proof.
    induction l as [|a l IH]; intros m x c; [reflexivity|].
    cbn [app in_row]. rewrite IH. reflexivity.
  Qed.
  Lemma chain_cons : forall fwd t ts x c, chain fwd (t :: ts) x c = m_term W true t fwd x (fun y => chain fwd ts y c).
  Proof.
    intros [|] t ts x c; unfold chain; [reflexivity|].
    cbn [rev]. rewrite map_app. cbn [map]. apply in_row_back.
  Qed.
  Definition numdir (fwd : bool) (ts : list term) (a b : nat) : Prop :=
    num_terms (if fwd then ts else rev ts) (Some a) = Some b.
  Lemma numdir_cons : forall fwd t ts a b, numdir fwd (t :: ts) a b ->
    exists c d c' d', num_term t c = Some d /\ numdir fwd ts c' d' /\
      a <= c /\ c <= d /\ d <= b /\ a <= c' /\ c' <= d' /\ d' <= b /\ (d <= c' \/ d' <= c).
  Proof.
    intros fwd t ts a b H. unfold numdir in *. destruct fwd.
    - apply num_terms_cons in H. destruct H as (h & A & B).
      pose proof (num_term_le _ _ _ A). pose proof (num_terms_le _ _ _ B).
      exists a, h, h, b. spl; auto.
    - cbn [rev] in H. apply num_terms_snoc in H. destruct H as (h & A & B).
      pose proof (num_terms_le _ _ _ A). pose proof (num_term_le _ _ _ B).
      exists h, b, a, h. spl; auto.
  Qed.
  Lemma pre_sub : forall sg fwd gs ge a b x y s s2, pre sg fwd gs ge x s ->
    gs <= a -> a <= b -> b <= ge -> rv s2 = negb fwd -> good s2 -> rep y (pos s2) (vec s2) ->
    unset a b (vec s2) -> sameout gs ge (vec s) (vec s2) -> pre sg fwd a b y s2.
  Proof.
    intros sg fwd gs ge a b x y s s2 (R & Gd & Re & U & P1 & P2 & P3 & P4 & P5 & So) A B C R2 G2 Re2 U2 S2.
    unfold pre. spl; auto; try lia.
    eapply sameout_trans; [exact So|]. eapply sameout_wide; [| |exact S2]; lia.
  Qed.
  Lemma terms_ok : forall (ts : list term) (t : term) z sg (fwd : bool) gs ge x s c,
    cur z = t -> (if fwd then after z else before z) = ts -> Forall Qt (t :: ts) ->
    numdir fwd (t :: ts) gs ge -> (flat \/ forallb no_back_t (t :: ts) = true) ->
    k s = KTerms z -> pre sg fwd gs ge x s ->
    contok sg fwd gs ge (vec s) (nextp s) c (jobs s) (vmem s) ->
    outcome sg s (chain fwd (t :: ts) x c).
  Proof.
    induction ts as [|t2 ts IH]; intros t z sg fwd gs ge x s c Cz Rz FQ Nd Fl K P C.
    - assert (Hs : step E s = call (KTerm t 1 None) s).
      { unfold step. rewrite K. unfold next_ptr. rewrite (proj1 P). destruct fwd; cbn [negb]; rewrite Rz, Cz; reflexivity. }
      eapply o_goto; [exact Hs|cbn; auto using agree_refl..|].
      rewrite chain_cons. change (fun y => chain fwd [] y c) with (fun y => in_row fwd (map (fun t => m_term W true t fwd) (if fwd then [] else [])) y c).
      replace (map (fun t => m_term W true t fwd) (if fwd then [] else [])) with (@nil matcher) by (destruct fwd; reflexivity).
      cbn [in_row].
      assert (Nt : num_term t gs = Some ge).
      { unfold numdir in Nd. destruct fwd; cbn in Nd; exact Nd. }
      inversion FQ; subst. eapply H1; eauto.
      destruct Fl as [Fl|Fl]; auto. cbn in Fl. rewrite andb_true_r in Fl. auto.
    - set (z' := {| before := if fwd then cur z :: before z else tl (before z);
                    cur := t2;
                    after := if fwd then tl (after z) else cur z :: after z |}).
      assert (Nz : next_ptr (negb fwd) z = Some z').
      { unfold next_ptr, z'. destruct fwd; cbn [negb]; rewrite Rz; reflexivity. }
      assert (Hs : step E s = call (KTerm t 1 None) (push_next (JTermList z' (nextp s)) s)).
      { unfold step. rewrite K, (proj1 P), Nz, Cz. reflexivity. }
      destruct (numdir_cons _ _ _ _ _ Nd) as (a & b & a' & b' & Nt & Nr & O1 & O2 & O3 & O4 & O5 & O6 & O7).
      inversion FQ as [|? ? Qt1 FQ2]; subst.
      unfold outcome. eapply o_step; [exact Hs|]. apply o_push with (JTermList z' (nextp s)); [reflexivity|].
      rewrite chain_cons.
      match goal with |- outc _ ?s1 _ _ _ _ _ => change (outcome sg s1 (m_term W true (cur z) fwd x (fun y => chain fwd (t2 :: ts) y c))) end.
      assert (Gd : good s) by apply P. assert (U : unset gs ge (vec s)) by apply P.
      apply Qt1 with a b; auto.
      + destruct Fl as [Fl|Fl]; auto. cbn in Fl. apply andb_prop in Fl. tauto.
      + eapply pre_sub; [exact P|..]; cbn; auto; try lia; try apply P.
        * apply good_push; auto. apply Gd.
        * eapply unset_sub; [exact U|lia..].
        * apply sameout_refl.
      + intros s2 y T K2 N2 J2 NT R2 G2 A2 Re2 S2. cbn [nextp jobs vmem vec push_next] in N2, J2, A2, S2.
        assert (Hs2 : step E s2 = call (KTerms z') (Cfg (k s2) (pos s2) (rv s2) (vec s2) (nextp s) (jobs s2) (vmem s2) (vnum s2))).
        { rewrite (step_next s2 (length (jobs s)) (JTermList z' (nextp s))); auto.
          rewrite J2. apply nth_snoc. }
        eapply o_goto; [exact Hs2|cbn; auto using agree_refl..|].
        apply (IH t2 z' sg fwd a' b'); auto.
        * unfold z'. destruct fwd; cbn [after before]; rewrite Rz; reflexivity.
        * destruct Fl as [Fl|Fl]; auto. right. cbn [forallb] in Fl. apply andb_prop in Fl. tauto.
        * eapply pre_sub; [exact P|..]; cbn; auto; try lia.
          -- eapply sameout_unset; [exact S2| |lia]. eapply unset_sub; [exact U|lia..].
          -- eapply sameout_wide; [| |exact S2]; lia.
        * cbn [vec nextp jobs vmem].
          eapply contok_narrow with (gs := gs) (ge := ge) (v0 := vec s); [|lia|lia|].
          -- eapply contok_ext with (T := JTermList z' (nextp s) :: T); [exact C| |cbn; auto|].
             ++ rewrite J2, <- app_assoc. reflexivity.
             ++ eapply agree_less; [|exact A2]. rewrite vcount_app. lia.
          -- eapply sameout_wide; [| |exact S2]; lia.
  Qed.

  (** * alternatives *)
  Lemma m_terms_chain : forall l fwd, m_terms W true l fwd = chain fwd (if fwd then l else rev l).
  Proof. intros l [|]; unfold m_terms, chain; [|rewrite rev_involutive]; reflexivity. Qed.
  Lemma numdir_of : forall fwd l a b, num_terms l (Some a) = Some b -> numdir fwd (if fwd then l else rev l) a b.
  Proof. intros [|] l a b H; unfold numdir; [|rewrite rev_involutive]; auto. Qed.
  (** an alternative whose choice point is already pushed *)
  Lemma alter_ok : forall l sg fwd gs ge x s s1 c, Forall Qt l ->
    num_terms l (Some gs) = Some ge -> (flat \/ forallb no_back_t l = true) ->
    step E s = match first_ptr (negb fwd) l with None => res Next s1 | Some z => call (KTerms z) s1 end ->
    pre sg fwd gs ge x s1 ->
    contok sg fwd gs ge (vec s1) (nextp s1) c (jobs s1) (vmem s1) ->
    outc sg s (jobs s1) (vnum s1) (rv s1) (vmem s1) (m_terms W true l fwd x c).
  Proof.
    intros l sg fwd gs ge x s s1 c FQ Nt Fl Hs P C.
    rewrite m_terms_chain. apply numdir_of with (fwd := fwd) in Nt.
    assert (FQ' : Forall Qt (if fwd then l else rev l)).
    { destruct fwd; auto. apply Forall_rev. auto. }
    assert (Fl' : flat \/ forallb no_back_t (if fwd then l else rev l) = true).
    { destruct Fl as [Fl|Fl]; auto. right. destruct fwd; auto. rewrite forallb_forall in *.
      intros t Ht. apply Fl. apply in_rev. auto. }
    set (ts := if fwd then l else rev l) in *.
    assert (Hf : first_ptr (negb fwd) l = match ts with [] => None | t :: r =>
        Some {| before := if fwd then [] else r; cur := t; after := if fwd then r else [] |} end).
    { unfold first_ptr, ts. destruct fwd; cbn [negb]; [destruct l|destruct (rev l)]; reflexivity. }
    rewrite Hf in Hs. clearbody ts. destruct ts as [|t ts].
    - unfold res in Hs. eapply o_step; [exact Hs|]. unfold chain.
      replace (map (fun t => m_term W true t fwd) (if fwd then [] else rev [])) with (@nil matcher) by (destruct fwd; reflexivity).
      cbn [in_row]. unfold numdir in Nt.
      assert (gs = ge) by (destruct fwd; cbn in Nt; congruence). subst ge.
      match goal with |- outc _ ?s2 _ _ _ _ _ => change (outcome sg s2 (c x)); apply (use_cont sg fwd gs gs (vec s1) (nextp s1) c (jobs s1) (vmem s1) s2 x C) end;
        cbn; auto using agree_refl, sameout_refl; apply P.
    - unfold call in Hs. eapply o_step; [exact Hs|].
      match goal with |- outc _ ?s2 _ _ _ _ _ => change (outcome sg s2 (chain fwd (t :: ts) x c)); eapply (terms_ok ts t _ sg fwd gs ge x s2 c) end;
        try reflexivity; auto. destruct fwd; reflexivity.
  Qed.
  Lemma alts_ok : forall rest l sg fwd gs ge x s c, Forall (Forall Qt) (l :: rest) ->
    num_pat (l :: rest) (Some gs) = Some ge -> (flat \/ forallb (forallb no_back_t) (l :: rest) = true) ->
    k s = KAlter l rest -> pre sg fwd gs ge x s ->
    contok sg fwd gs ge (vec s) (nextp s) c (jobs s) (vmem s) ->
    outcome sg s (m_pat W true (l :: rest) fwd x c).
  Proof.
    induction rest as [|l2 rest IH]; intros l sg fwd gs ge x s c FQ Np Fl K P C.
    - unfold m_pat. cbn [map in_turn]. inversion FQ; subst.
      apply num_pat_cons in Np. destruct Np as (h & Nt & Q). injection Q as <-.
      apply (alter_ok l sg fwd gs h x s s c); auto.
      + destruct Fl as [Fl|Fl]; auto. right. cbn in Fl. rewrite andb_true_r in Fl. auto.
      + unfold step. rewrite K, (proj1 P). destruct (first_ptr (negb fwd) l); reflexivity.
    - change (m_pat W true (l :: l2 :: rest) fwd x c)
        with (m_terms W true l fwd x c orelse m_pat W true (l2 :: rest) fwd x c).
      inversion FQ as [|? ? F1 F2]; subst.
      apply num_pat_cons in Np. destruct Np as (h & Nt & Np).
      pose proof (num_terms_le _ _ _ Nt) as O1. pose proof (num_pat_le _ _ _ Np) as O2.
      assert (Gd : good s) by apply P. assert (U : unset gs ge (vec s)) by apply P.
      assert (Fl2 : (flat \/ forallb no_back_t l = true) /\ (flat \/ forallb (forallb no_back_t) (l2 :: rest) = true)).
      { destruct Fl as [Fl|Fl]; auto. cbn [forallb] in Fl. apply andb_prop in Fl. destruct Fl. split; right; auto. }
      set (j := JAlter (vnum s) l2 rest (pos s) (nextp s)).
      set (s1 := push_saved j s).
      assert (Hs : step E s = match first_ptr (negb fwd) l with None => res Next s1 | Some z => call (KTerms z) s1 end).
      { unfold step. rewrite K, (proj1 P). reflexivity. }
      unfold outcome. apply o_choice with (j := j) (v := vec s); auto; try apply Gd.
      + replace (vnum s + L2) with (vnum s1) by (cbn; f_equal; apply Gd).
        apply (alter_ok l sg fwd gs h x s s1 c); auto; try apply Fl2.
        * eapply pre_sub; [exact P|..]; cbn; auto; try lia; try apply P.
          -- apply good_saved; auto.
          -- eapply unset_sub; [exact U|lia..].
          -- apply sameout_refl.
        * cbn [vec nextp jobs vmem push_saved s1].
          eapply contok_narrow with (gs := gs) (ge := ge) (v0 := vec s); [|lia|lia|apply sameout_refl].
          eapply contok_ext with (T := [j]); [exact C|reflexivity|reflexivity|].
          destruct Gd as (_ & <- & B & _). apply agree_save. auto.
      + intros s' J' V' R' A' B' L' Rs. unfold run_job, j. cbn iota. rewrite Rs.
        eexists. split; [reflexivity|].
        match goal with |- outc _ ?s2 _ _ _ _ _ => apply o_mem with (vmem s'); [auto|];
          assert (Q : outcome sg s2 (m_pat W true (l2 :: rest) fwd x c)) end.
        { apply (IH l2 sg fwd h ge); auto; try apply Fl2.
          - eapply pre_sub; [exact P|..]; cbn; auto; try lia; try apply P.
            + rewrite R'. apply P.
            + unfold good. cbn. rewrite J', V'. destruct Gd as (G1 & G2 & G3 & G4). auto.
            + eapply unset_sub; [exact U|lia..].
            + apply sameout_refl.
          - cbn [vec nextp jobs vmem]. rewrite J'.
            eapply contok_narrow with (gs := gs) (ge := ge) (v0 := vec s); [|lia|lia|apply sameout_refl].
            eapply contok_ext with (T := []); [exact C|rewrite app_nil_r; reflexivity|reflexivity|].
            destruct Gd as (_ & <- & _). auto. }
        unfold outcome in Q. cbn [jobs vnum rv vmem] in Q. rewrite J', V', R' in Q |- *. exact Q.
  Qed.
  Lemma pat_ok : forall p sg fwd gs ge x s c, Forall (Forall Qt) p ->
    num_pat p (Some gs) = Some ge -> (flat \/ forallb (forallb no_back_t) p = true) ->
    k s = KPat p -> pre sg fwd gs ge x s ->
    contok sg fwd gs ge (vec s) (nextp s) c (jobs s) (vmem s) ->
    outcome sg s (m_pat W true p fwd x c).
  Proof.
    intros [|l rest] sg fwd gs ge x s c FQ Np Fl K P C.
    - assert (Hs : step E s = res Next s) by (unfold step; rewrite K; reflexivity).
      unfold res in Hs. eapply o_goto; [exact Hs|cbn; auto using agree_refl..|].
      unfold m_pat. cbn [map in_turn]. injection Np as ->.
      match goal with |- outcome _ ?s2 _ => apply (use_cont sg fwd ge ge (vec s) (nextp s) c (jobs s) (vmem s) s2 x C) end;
        cbn; auto using agree_refl, sameout_refl; apply P.
    - assert (Hs : step E s = call (KAlter l rest) s) by (unfold step; rewrite K; reflexivity).
      unfold call in Hs. eapply o_goto; [exact Hs|cbn; auto using agree_refl..|].
      apply alts_ok with gs ge; auto.
  Qed.

  (** * the other atoms *)
  Lemma o_goto_star : forall sg s s1 r, star s s1 -> jobs s1 = jobs s -> vnum s1 = vnum s ->
    rv s1 = rv s -> agree (vnum s) (vmem s) (vmem s1) -> outcome sg s1 r -> outcome sg s r.
  Proof.
    unfold outcome. intros sg s s1 r Hs J V R A O. eapply o_star; [exact Hs|].
    rewrite J, V, R in O. eapply o_mem; eauto.
  Qed.
  Lemma atom_sets : forall a, match a with AChar _ | AAll | AClass _ _ => True | _ => False end -> Pa a.
  Proof.
    intros a H t sg fwd gs ge x s c Ta Tg Te N Fl K P C.
    replace (m_atom W true a fwd x c) with (set_matcher W a fwd x c) by (destruct a; try tauto; reflexivity).
    apply (atom_set a t sg fwd gs ge x s c); auto.
  Qed.
  Lemma atom_assertions : forall a, match a with ALineStart | ALineEnd | AWordB | ANotWordB => True | _ => False end -> Pa a.
  Proof.
    intros a H t sg fwd gs ge x s c Ta Tg Te N Fl K P C.
    assert (Re : rep x (pos s) (vec s)) by apply P. destruct Re as (Rp & Rn & _).
    assert (Hs : step E s = atom_step E t s) by (unfold step; rewrite K; reflexivity).
    unfold atom_step in Hs. rewrite Ta in Hs.
    destruct a; try tauto; cbn [m_atom]; eapply atom_check; eauto; rewrite Hs, Rp.
    - rewrite <- Hstart by auto. reflexivity.
    - rewrite <- Hend by auto. reflexivity.
    - rewrite <- Hwb, <- Hwa by auto. reflexivity.
    - rewrite <- Hwb, <- Hwa by auto. reflexivity.
  Qed.
  Lemma atom_pat : forall p, Forall (Forall Qt) p -> Pa (APat p).
  Proof.
    intros p FQ t sg fwd gs ge x s c Ta Tg Te N Fl K P C.
    assert (Hs : step E s = call (KPat p) s).
    { unfold step. rewrite K. unfold atom_step. rewrite Ta. reflexivity. }
    eapply o_goto; [exact Hs|cbn; auto using agree_refl..|].
    apply (pat_ok p sg fwd gs ge); auto.
  Qed.
  Lemma rep_group : forall x y v v1 v2 gs ge, gs < G -> gs < ge ->
    rep x (off (e x)) v -> unset gs ge v ->
    v1 = vset v (2 * gs) (Z.of_nat (off (e x))) ->
    rep x (off (e x)) v1 /\ sameout gs (S gs) v v1 /\
    (sameout (S gs) ge v1 v2 -> length v = L2 -> rep y (off (e y)) v2 ->
     rep (St (e y) (set_cap (cs y) gs (Some (Nat.min (e x) (e y), Nat.max (e x) (e y)))))
         (off (e y)) (vset v2 (2 * gs + 1) (Z.of_nat (off (e y)))) /\
     sameout gs ge v (vset v2 (2 * gs + 1) (Z.of_nat (off (e y))))).
  Proof.
    intros x y v v1 v2 gs ge Hg Hge (A & B & C & D & F) U ->.
    assert (S1 : sameout gs (S gs) v (vset v (2 * gs) (Z.of_nat (off (e x))))).
    { split. { rewrite vset_length. auto. }
      intros i Hi. rewrite vget_vset. destruct (Nat.eqb_spec (2 * gs) i); [lia|]. reflexivity. }
    spl; auto.
    - unfold rep. spl; auto. intros i Hi. specialize (D i Hi). rewrite <- D. unfold vcap. rewrite !vget_vset.
      destruct (Nat.eqb_spec (2 * gs) (2 * i + 1)); [lia|]. cbn [andb].
      destruct (Nat.eqb_spec (2 * gs) (2 * i)); [|reflexivity]. assert (i = gs) by lia. subst i.
      rewrite (U (2 * gs + 1)) by lia. rewrite (U (2 * gs)) by lia. rewrite !orb_true_r. reflexivity.
    - intros [L2' S2] Lv (A' & B' & C' & D' & F'). rewrite vset_length in L2'.
      assert (V0 : vget v2 (2 * gs) = Z.of_nat (off (e x))).
      { rewrite <- S2 by lia. rewrite vget_vset, Nat.eqb_refl.
        destruct (Nat.ltb_spec (2 * gs) (length v)); [reflexivity|lia]. }
      split.
      + unfold rep. cbn [e cs]. spl; auto.
        * rewrite set_cap_length. auto.
        * intros i Hi. rewrite cap_set, C'. specialize (D' i Hi).
          unfold vcap in *. rewrite !vget_vset.
          destruct (Nat.eqb_spec (2 * gs + 1) (2 * i)); [lia|]. cbn [andb].
          destruct (Nat.eqb_spec gs i) as [->|Ne].
          -- rewrite V0. rewrite Nat.eqb_refl.
             destruct (Nat.ltb_spec (2 * i + 1) (length v2)); [|lia].
             destruct (Nat.ltb_spec i G); [|lia]. cbn [andb offc].
             destruct (Z.eqb_spec (Z.of_nat (off (e x))) (-1)); [lia|].
             destruct (Z.eqb_spec (Z.of_nat (off (e y))) (-1)); [lia|]. cbn [orb]. f_equal.
             destruct (Nat.le_ge_cases (e x) (e y)) as [Hxy|Hxy].
             ++ pose proof (off_le _ _ Hxy B'). rewrite Nat.min_l, Nat.max_r by auto. f_equal; lia.
             ++ pose proof (off_le _ _ Hxy B). rewrite Nat.min_r, Nat.max_l by auto. f_equal; lia.
          -- destruct (Nat.eqb_spec (2 * gs + 1) (2 * i + 1)); [lia|]. cbn [andb]. auto.
        * intros i a b H. rewrite cap_set, C' in H.
          destruct ((gs =? i) && (gs <? G)).
          -- injection H as <- <-. lia.
          -- eapply F'; eauto.
      + split. { rewrite vset_length. lia. }
        intros i Hi. rewrite vget_vset. destruct (Nat.eqb_spec (2 * gs + 1) i); [lia|]. cbn [andb].
        rewrite <- S2 by lia. rewrite vget_vset. destruct (Nat.eqb_spec (2 * gs) i); [lia|]. reflexivity.
  Qed.
  Lemma atom_group : forall idx p, Forall (Forall Qt) p -> Pa (AGroup idx p).
  Proof.
    intros idx p FQ t sg fwd gs ge x s c Ta Tg Te N Fl K P C.
    assert (Gd : good s) by apply P. assert (Re : rep x (pos s) (vec s)) by apply P.
    assert (U : unset gs ge (vec s)) by apply P.
    pose proof P as (R & _ & _ & _ & P1 & P2 & P3 & P4 & P5 & So).
    cbn [num_atom] in N. destruct (Nat.eqb_spec idx gs) as [->|]; [|discriminate].
    change (num_pat p (Some (S gs)) = Some ge) in N. pose proof (num_pat_le _ _ _ N) as O1.
    set (v1 := vset (vec s) (2 * gs) (Z.of_nat (pos s))).
    set (j := JGroupEnd gs (nextp s)).
    assert (Hp : pos s = off (e x)) by apply Re.
    assert (Lv : length (vec s) = L2) by apply Gd.
    assert (Lv1 : length v1 = L2) by (unfold v1; rewrite vset_length; auto).
    assert (Hs : step E s = Go (Cfg (KPat p) (pos s) (rv s) v1 (Some (length (jobs s))) (jobs s ++ [j]) (vmem s) (vnum s))).
    { unfold step. rewrite K. unfold atom_step. rewrite Ta.
      destruct (Nat.ltb_spec (2 * gs + 1) (length (vec s))); [reflexivity|lia]. }
    rewrite Hp in Re.
    pose proof (fun y v2 => rep_group x y (vec s) v1 v2 gs ge ltac:(lia) ltac:(lia) Re U) as RG.
    assert (V1 : v1 = vset (vec s) (2 * gs) (Z.of_nat (off (e x)))) by (unfold v1; rewrite Hp; reflexivity).
    destruct (RG x v1 V1) as (Re1 & S1 & _).
    unfold outcome. eapply o_step; [exact Hs|]. apply o_push with j; [reflexivity|].
    change (m_atom W true (AGroup gs p) fwd x c) with (m_pat W true p fwd x (fun y =>
          c (St (e y) (set_cap (cs y) gs (Some (Nat.min (e x) (e y), Nat.max (e x) (e y))))))).
    set (c1 := fun y => c (St (e y) (set_cap (cs y) gs (Some (Nat.min (e x) (e y), Nat.max (e x) (e y)))))).
    match goal with |- outc _ ?s1 _ _ _ _ _ => change (outcome sg s1 (m_pat W true p fwd x c1)); apply (pat_ok p sg fwd (S gs) ge x s1 c1) end; auto.
    - eapply pre_sub; [exact P|..]; cbn [rv pos vec]; auto; try lia.
      + apply good_push; auto.
      + rewrite Hp. exact Re1.
      + intros i Hi. rewrite <- (proj2 S1) by lia. apply U. lia.
      + eapply sameout_wide; [| |exact S1]; lia.
    - cbn [vec nextp jobs vmem]. intros s' y T K' N' J' NT R' Gd' Ag' Re' So'.
      assert (Hs' : step E s' = Go (Cfg (KRes Next) (pos s') (rv s') (vset (vec s') (2 * gs + 1) (Z.of_nat (pos s')))
          (nextp s) (jobs s') (vmem s') (vnum s'))).
      { rewrite (step_next s' (length (jobs s)) j); auto.
        - cbn [run_job j]. cbn [vec pos rv jobs vmem vnum job_next].
          destruct (Nat.ltb_spec (2 * gs + 1) (length (vec s'))); [reflexivity|]. destruct Gd' as [Q _]. lia.
        - rewrite J'. apply nth_snoc. }
      eapply o_goto; [exact Hs'|cbn; auto using agree_refl..|].
      assert (Hp' : pos s' = off (e y)) by apply Re'.
      destruct (RG y (vec s') V1) as (_ & _ & Q). rewrite Hp' in Re'.
      destruct (Q So' Lv Re') as [Re2 So2]. unfold c1. apply (C _ _ ([j] ++ T)); cbn [k nextp jobs rv vmem pos vec]; auto.
      + rewrite J', <- app_assoc. reflexivity.
      + apply good_with; auto. rewrite vset_length. apply Gd'.
      + eapply agree_less; [|exact Ag']. rewrite vcount_app. lia.
      + rewrite Hp'. exact Re2.
      + rewrite Hp'. exact So2.
  Qed.

  (** a lookaround is over: the jobs above it are dropped *)
  Lemma unwind : forall T J s, k s = KRes Accept -> jobs s = J ++ T -> forallb nolook T = true -> good s ->
    exists s', star s s' /\ k s' = KRes Accept /\ jobs s' = J /\ good s' /\ vec s' = vec s /\ vmem s' = vmem s.
  Proof.
    induction T as [|j T IH] using rev_ind; intros J s K Hj NT Gd.
    - rewrite app_nil_r in Hj. exists s. spl; auto. constructor.
    - rewrite app_assoc in Hj. rewrite forallb_app in NT. apply andb_prop in NT. destruct NT as [N1 N2].
      cbn in N2. rewrite andb_true_r in N2.
      pose proof (step_pop s (J ++ T) j Accept K (or_intror eq_refl) Hj) as Hs.
      assert (Hs' : exists np, step E s = Go (Cfg (KRes Accept) (pos s) (rv s) (vec s) np (J ++ T) (vmem s)
                 (match job_vsp j with Some v => v | None => vnum s end))).
      { rewrite Hs. destruct j; try discriminate; cbn [run_job]; unfold res; cbn [pos rv vec nextp jobs vmem vnum]; eexists; reflexivity. }
      destruct Hs' as (np & Hs').
      match type of Hs' with _ = Go ?a => set (s1 := a) in *; destruct (IH J s1) as (s' & A & B & Cj & D & F & H) end; auto.
      + destruct Gd as (L & V & M & S). rewrite Hj in V, S.
        assert (Q : vnum s1 = vcount L2 (J ++ T)).
        { cbn [vnum s1]. destruct (job_vsp j) as [v|] eqn:Ev.
          - apply (S (J ++ T) j [] v); auto.
          - rewrite V, vcount_app. unfold vcount at 2. cbn [filter]. unfold is_choice. rewrite Ev. cbn [length]. lia. }
        unfold good. spl; auto.
        * cbn [jobs s1]. rewrite Q. rewrite V, vcount_app in M. cbn [vmem s1]. lia.
        * cbn [jobs s1]. eapply vsps_app; eauto.
      + exists s'. spl; auto. econstructor; eauto.
  Qed.
  Lemma atom_look : forall ahead neg p, Forall (Forall Qt) p -> Pa (ALook ahead neg p).
  Proof.
    intros ahead neg p FQ t sg fwd gs ge x s c Ta Tg Te N Fl K P C.
    assert (Gd : good s) by apply P. assert (Re : rep x (pos s) (vec s)) by apply P.
    assert (U : unset gs ge (vec s)) by apply P.
    pose proof P as (R & _ & _ & _ & P1 & P2 & P3 & P4 & P5 & So).
    change (num_pat p (Some gs) = Some ge) in N.
    set (jl := JLook neg gs ge (pos s) (rv s) (nextp s)).
    set (s1 := Cfg (KPat p) (pos s) (negb ahead) (vec s) (Some (length (jobs s ++ [jl]))) ((jobs s ++ [jl]) ++ [JOk]) (vmem s) (vnum s)).
    assert (Hs : step E s = Go s1).
    { unfold step. rewrite K. unfold atom_step. rewrite Ta, Tg, Te. reflexivity. }
    assert (Lv : length (vec s) = L2) by apply Gd.
    assert (Gp : good (push jl s)) by (unfold push; apply good_push; auto).
    assert (G1 : good s1).
    { unfold s1. change (jobs s ++ [jl]) with (jobs (push jl s)).
      change (vmem s) with (vmem (push jl s)). change (vnum s) with (vnum (push jl s)). apply good_push; auto. }
    set (J := (jobs s ++ [jl]) ++ [JOk]).
    assert (VJ : vcount L2 J = vcount L2 (jobs s)).
    { unfold J. rewrite !vcount_app. unfold vcount at 2 3. cbn. lia. }
    set (sg' := {| lo := gs; hi := ge; vs := vec s; acc := fun y s2 => k s2 = KRes Accept /\
        exists T, jobs s2 = J ++ T /\ forallb nolook T = true /\ good s2 /\
          agree (vcount L2 (jobs s)) (vmem s) (vmem s2) /\ rep y (pos s2) (vec s2) /\ sameout gs ge (vec s) (vec s2) |}).
    assert (P' : pre sg' ahead gs ge x s1).
    { unfold pre. cbn [lo hi vs sg' rv s1 pos vec]. spl; auto; try lia. apply sameout_refl. }
    assert (C' : contok sg' ahead gs ge (vec s1) (nextp s1) Found (jobs s1) (vmem s1)).
    { cbn [vec nextp jobs vmem s1]. fold J. intros s2 y T K2 N2 J2 NT R2 Gd2 Ag2 Re2 So2.
      assert (Hs2 : step E s2 = res Accept (Cfg (k s2) (pos s2) (rv s2) (vec s2) None (jobs s2) (vmem s2) (vnum s2))).
      { rewrite (step_next s2 (length (jobs s ++ [jl])) JOk); auto. rewrite J2. unfold J. apply nth_snoc. }
      unfold res in Hs2. unfold outcome, outc. eexists. split; [econstructor; [exact Hs2|constructor]|].
      cbn [acc sg' k jobs vmem pos vec]. split; auto. exists T. spl; auto.
      rewrite <- VJ. auto. }
    assert (O : outcome sg' s1 (m_pat W true p ahead x Found)).
    { apply pat_ok with gs ge; auto. }
    change (m_atom W true (ALook ahead neg p) fwd x c) with
      (match m_pat W true p ahead x Found with
        | Out => Out
        | Found y => if neg then Failure else c (St (e x) (cs y))
        | Failure => if neg then c x else Failure
        end).
    assert (Rel : forall s3, good s3 -> jobs s3 = jobs s -> vnum s3 = vnum s).
    { intros s3 (_ & V & _) Q. rewrite V, Q. symmetry. apply Gd. }
    destruct (m_pat W true p ahead x Found) as [|y|]; [| |exact I].
    - (* the inner pattern failed *)
      cbn [outcome outc] in O. destruct O as (s2 & A & (K2 & J2 & V2 & R2 & M2 & L2' & B2 & S2)).
      cbn [jobs vnum rv vmem s1] in J2, V2, R2, M2, B2. cbn [lo hi vs sg'] in S2.
      pose proof (step_pop s2 _ JOk Reject K2 (or_introl eq_refl) J2) as H2. cbn [run_job job_vsp] in H2. unfold res in H2. cbn [pos rv vec nextp jobs vmem vnum] in H2.
      match type of H2 with _ = Go ?a => set (s3 := a) in *;
        pose proof (step_pop s3 (jobs s) jl Reject eq_refl (or_introl eq_refl) eq_refl) as H3 end.
      assert (Q : star s s3). { econstructor; [exact Hs|]. eapply star_trans; [exact A|]. econstructor; [exact H2|constructor]. }
      cbn [run_job job_vsp jl s3 pos rv vec nextp jobs vmem vnum] in H3.
      assert (M : agree (vnum s) (vmem s) (vmem s2)) by auto.
      destruct neg.
      + assert (Hc : ((2 * ge <=? length (vec s2)) || (ge <=? gs))%nat = true).
        { destruct (Nat.leb_spec (2 * ge) (length (vec s2))); auto. exfalso. lia. }
        rewrite Hc, (clear_back gs ge (vec s) (vec s2) U S2) in H3.
        match type of H3 with _ = Go ?a => set (s4 := a) in * end.
        apply o_goto_star with s4; auto.
        { eapply star_trans; [exact Q|]. econstructor; [exact H3|constructor]. }
        apply (use_cont sg fwd gs ge (vec s) (nextp s) c (jobs s) (vmem s) s4 x C); cbn [s4 k nextp jobs rv vmem pos vec]; auto.
        * unfold good. cbn [vec vnum jobs vmem s4]. destruct Gd as (g1 & g2 & g3 & g4). spl; auto; try congruence.
        * destruct Gd as (_ & <- & _). auto.
        * apply sameout_refl.
      + match type of H3 with _ = ?b => let b' := eval cbv [res] in b in change b with b' in H3 end.
        cbn [pos rv vec nextp jobs vmem vnum] in H3.
        match type of H3 with _ = Go ?a => set (s4 := a) in * end.
        apply o_goto_star with s4; auto.
        { eapply star_trans; [exact Q|]. econstructor; [exact H3|constructor]. }
        apply reject_now; auto.
        * unfold good. cbn [vec vnum jobs vmem s4]. destruct Gd as (g1 & g2 & g3 & g4). spl; auto; try congruence.
        * cbn [vec s4]. eapply sameout_trans; [exact So|]. eapply sameout_wide; [| |exact S2]; lia.
    - cbn [outcome outc] in O. destruct O as (s2 & A & (K2 & T & J2 & NT & Gd2 & Ag2 & Re2 & So2)).
      destruct (unwind T J s2 K2 J2 NT Gd2) as (s3 & A3 & K3 & J3 & Gd3 & V3 & M3).
      pose proof (step_pop s3 _ JOk Accept K3 (or_intror eq_refl) J3) as H4. cbn [run_job job_vsp] in H4. unfold res in H4. cbn [pos rv vec nextp jobs vmem vnum] in H4.
      match type of H4 with _ = Go ?a => set (s4 := a) in *;
        pose proof (step_pop s4 (jobs s) jl Accept eq_refl (or_intror eq_refl) eq_refl) as H5 end.
      assert (Q : star s s4). { econstructor; [exact Hs|]. eapply star_trans; [exact A|]. eapply star_trans; [exact A3|]. econstructor; [exact H4|constructor]. }
      cbn [run_job job_vsp jl s4 pos rv vec nextp jobs vmem vnum] in H5.
      assert (V4 : vnum s3 = vnum s). { destruct Gd3 as (_ & -> & _). rewrite J3, VJ. symmetry. apply Gd. }
      assert (M : agree (vnum s) (vmem s) (vmem s3)). { rewrite M3. destruct Gd as (_ & -> & _). auto. }
      assert (Gd4 : forall c p r np, good (Cfg c p r (vec s3) np (jobs s) (vmem s3) (vnum s3))).
      { intros. unfold good. cbn [vec vnum jobs vmem]. destruct Gd3 as (g1 & g2 & g3 & g4). spl; auto; try congruence.
        all: apply Gd. }
      destruct neg; match type of H5 with _ = ?b => let b' := eval cbv [res] in b in change b with b' in H5 end;
        cbn [pos rv vec nextp jobs vmem vnum] in H5;
        match type of H5 with _ = Go ?a => set (s5 := a) in * end;
        (apply o_goto_star with s5; auto; [eapply star_trans; [exact Q|]; econstructor; [exact H5|constructor]|]).
      + apply reject_now; [reflexivity|apply Gd4|].
        cbn [vec s5]. rewrite V3. eapply sameout_trans; [exact So|]. eapply sameout_wide; [| |exact So2]; lia.
      + apply (use_cont sg fwd gs ge (vec s) (nextp s) c (jobs s) (vmem s) s5 (St (e x) (cs y)) C); cbn [s5 k nextp jobs rv vmem pos vec]; auto.
        * apply Gd4.
        * destruct Gd as (_ & <- & _). auto.
        * rewrite V3. destruct Re2 as (a1 & a2 & a3 & a4 & a5). destruct Re as (b1 & b2 & b3 & b4 & b5).
          unfold rep. cbn [e cs]. spl; auto.
        * rewrite V3. auto.
  Qed.

  (** * quantifiers *)
  (** one iteration: the job that goes on with the loop is pushed, the atom is matched *)
  Lemma iteration : forall a t sg fwd gs ge i xr s d,
    Pa a -> t_atom t = a -> t_gs t = gs -> t_ge t = ge ->
    num_atom a gs = Some ge -> (flat \/ no_back a = true) ->
    rv s = negb fwd -> good s -> lo sg <= gs -> gs <= ge -> ge <= hi sg -> hi sg <= G -> 1 <= lo sg ->
    sameout (lo sg) (hi sg) (vs sg) (vec s) ->
    (i = 0 -> unset gs ge (vec s)) ->
    rep xr (pos s) (if 1 <? S i then clear_vec gs ge (vec s) else vec s) ->
    (forall s' y T, k s' = KTerm t (S i + 1) (Some (pos s)) -> nextp s' = nextp s -> jobs s' = jobs s ++ T ->
       forallb nolook T = true -> rv s' = negb fwd -> good s' -> agree (vcount L2 (jobs s)) (vmem s) (vmem s') ->
       rep y (pos s') (vec s') -> sameout gs ge (vec s) (vec s') -> outcome sg s' (d y)) ->
    exists s1, enter_atom t (S i) (push_next (JTerm t (S i + 1) (pos s) (nextp s)) s) = Go s1 /\
      outc sg s1 (jobs s) (vnum s) (rv s) (vmem s) (m_atom W true a fwd xr d).
  Proof.
    intros a t sg fwd gs ge i xr s d Ha Ta Tg Te N Fl R Gd O1 O2 O3 O4 O5 So U Re D.
    set (j := JTerm t (S i + 1) (pos s) (nextp s)).
    set (v1 := if 1 <? S i then clear_vec gs ge (vec s) else vec s) in *.
    set (s1 := Cfg (KAtom t) (pos s) (rv s) v1 (Some (length (jobs s))) (jobs s ++ [j]) (vmem s) (vnum s)).
    assert (Lv : length (vec s) = L2) by apply Gd.
    assert (Hs : enter_atom t (S i) (push_next j s) = Go s1).
    { unfold enter_atom, s1, v1. destruct (1 <? S i); [|reflexivity]. rewrite Tg, Te.
      cbn [vec push_next]. destruct (Nat.leb_spec (2 * ge) (length (vec s))); [reflexivity|lia]. }
    exists s1. split; auto.
    assert (S1 : sameout gs ge (vec s) v1).
    { unfold v1. destruct (1 <? S i); auto using sameout_refl, sameout_clear. }
    assert (Lv1 : length v1 = L2) by (destruct S1; lia).
    assert (U1 : unset gs ge v1).
    { unfold v1. destruct i; [apply U; reflexivity|]. cbn [Nat.ltb Nat.leb]. apply unset_clear. }
    apply o_push with j; [reflexivity|].
    change (outcome sg s1 (m_atom W true a fwd xr d)).
    apply (Ha t sg fwd gs ge xr s1 d); auto.
    - unfold pre. cbn [rv s1 pos vec]. spl; auto.
      + apply good_push; auto.
      + eapply sameout_trans; [exact So|]. eapply sameout_wide; [| |exact S1]; lia.
    - cbn [vec nextp jobs vmem s1]. intros s' y T K' N' J' NT R' Gd' Ag' Re' So'.
      assert (Hs' : step E s' = call (KTerm t (S i + 1) (Some (pos s)))
        (Cfg (k s') (pos s') (rv s') (vec s') (nextp s) (jobs s') (vmem s') (vnum s'))).
      { rewrite (step_next s' (length (jobs s)) j); auto. rewrite J'. apply nth_snoc. }
      unfold call in Hs'. cbn [pos rv vec nextp jobs vmem vnum] in Hs'.
      eapply o_goto; [exact Hs'|cbn [jobs vnum rv vmem]; auto using agree_refl..|].
      apply (D _ y ([j] ++ T)); cbn [k nextp jobs rv vmem pos vec]; auto.
      + rewrite J', <- app_assoc. reflexivity.
      + eapply agree_less; [|exact Ag']. rewrite vcount_app. lia.
      + eapply sameout_trans; [exact S1|]. exact So'.
  Qed.

  Definition minus_max (mx : option nat) (i : nat) : option nat :=
    match mx with Some m => Some (m - i) | None => None end.
  Lemma loop_ok : forall a mn mx gs ge g sg fwd, Pa a ->
    num_atom a gs = Some ge -> (flat \/ no_back a = true) ->
    match mx with Some m => mn <= m | None => True end ->
    lo sg <= gs -> gs <= ge -> ge <= hi sg -> hi sg <= G -> 1 <= lo sg ->
    forall F i p x s c,
    k s = KTerm (Term a mn mx gs ge g) (S i) p ->
    match i with O => unset gs ge (vec s)
            | S _ => exists q, p = Some q /\ (mn <= i -> q <> pos s) end ->
    match mx with Some m => i <= m | None => True end ->
    rv s = negb fwd -> good s -> rep x (pos s) (vec s) ->
    sameout (lo sg) (hi sg) (vs sg) (vec s) ->
    contok sg fwd gs ge (vec s) (nextp s) c (jobs s) (vmem s) ->
    outcome sg s (repeat_matcher true F (m_atom W true a fwd) (mn - i) (minus_max mx i) g gs ge x c).
  Proof.
    intros a mn mx gs ge g sg fwd Ha N Fl Mn O1 O2 O3 O4 O5.
    set (t := Term a mn mx gs ge g).
    assert (Stop : forall i p x s c, k s = KTerm t (S i) p ->
      (mn <= i /\ (mx = Some i \/ (0 < i /\ p = Some (pos s)))) -> 
      rv s = negb fwd -> good s -> rep x (pos s) (vec s) ->
      contok sg fwd gs ge (vec s) (nextp s) c (jobs s) (vmem s) -> outcome sg s (c x)).
    { intros i p x s c K H R Gd Re C.
      assert (Hs : step E s = res Next s).
      { unfold step. rewrite K. unfold term_step. cbn [t t_mn t_mx].
        destruct ((mn =? 0) && _); [reflexivity|].
        replace ((mn <? S i) && _) with true; [reflexivity|]. symmetry.
        destruct H as [H0 H]. apply andb_true_intro. split; [apply Nat.ltb_lt; lia|].
        destruct H as [-> | [H1 ->]].
        - destruct (Nat.ltb_spec i (S i)); [reflexivity|lia].
        - rewrite Nat.eqb_refl. destruct (Nat.ltb_spec 1 (S i)); [|lia]. apply orb_true_r. }
      unfold res in Hs. eapply o_goto; [exact Hs|cbn [jobs vnum rv vmem]; auto using agree_refl..|].
      match goal with |- outcome _ ?s2 _ => apply (use_cont sg fwd gs ge (vec s) (nextp s) c (jobs s) (vmem s) s2 x C) end;
        cbn [k nextp jobs rv vmem pos vec]; auto using agree_refl, sameout_refl. }
    induction F as [|F IH]; intros i p x s c K Hi Hm R Gd Re So C; [exact I|].
    cbn [repeat_matcher].
    destruct (match minus_max mx i with Some 0 => true | _ => false end) eqn:Ez.
    { unfold minus_max in Ez. destruct mx as [m|]; [|discriminate].
      assert (m = i) by (destruct (m - i) eqn:Q; [lia|discriminate]). subst m.
      apply (Stop i p); auto. }
    assert (Hlt : match mx with Some m => i < m | None => True end).
    { unfold minus_max in Ez. destruct mx as [m|]; auto. destruct (m - i) eqn:Q; [discriminate|lia]. }
    set (d := fun y => if (mn - i <=? 1) && (e y =? e x) then c y
              else repeat_matcher true F (m_atom W true a fwd) (mn - i - 1)
                  (match minus_max mx i with Some k => Some (k - 1) | None => None end) g gs ge y c).
    set (xr := St (e x) (clear_caps gs ge (cs x))).
    (* an iteration from a state with the same vector and position, more jobs *)
    assert (Iter : forall s0 T, jobs s0 = jobs s ++ T -> forallb nolook T = true -> vec s0 = vec s ->
      pos s0 = pos s -> nextp s0 = nextp s -> rv s0 = rv s -> good s0 ->
      agree (vcount L2 (jobs s)) (vmem s) (vmem s0) ->
      exists s1, enter_atom t (S i) (push_next (JTerm t (S i + 1) (pos s0) (nextp s0)) s0) = Go s1 /\
        outc sg s1 (jobs s0) (vnum s0) (rv s0) (vmem s0) (m_atom W true a fwd xr d)).
    { intros s0 T J0 NT V0 P0 N0 R0 G0 A0.
      apply (iteration a t sg fwd gs ge i xr s0 d); auto; try congruence.
      - intros Zi. rewrite Zi in Hi. rewrite V0. exact Hi.
      - rewrite P0, V0. unfold xr. destruct i as [|i]; cbn [Nat.ltb Nat.leb].
        + apply rep_clear_unset; auto.
        + apply rep_clear; auto.
      - intros s' y T' K' N' J' NT' R' Gd' Ag' Re' So'.
        assert (C' : contok sg fwd gs ge (vec s') (nextp s') c (jobs s') (vmem s')).
        { rewrite N', N0. eapply contok_narrow with (gs := gs) (ge := ge) (v0 := vec s); [|lia|lia|].
          - eapply contok_ext with (T := T ++ T'); [exact C| | |].
            + rewrite J', J0, app_assoc. reflexivity.
            + rewrite forallb_app, NT, NT'. reflexivity.
            + eapply agree_trans; [exact A0|]. eapply agree_less; [|exact Ag']. rewrite J0, vcount_app. lia.
          - rewrite <- V0. exact So'. }
        assert (Hp : pos s0 = pos s' <-> e y = e x).
        { rewrite P0. destruct Re as (p1 & p2 & _). destruct Re' as (q1 & q2 & _). rewrite p1, q1. split.
          - intros Q. apply off_inj; auto.
          - intros ->. reflexivity. }
        rewrite Nat.add_1_r in K'. unfold d.
        destruct ((mn - i <=? 1) && (e y =? e x)) eqn:Ed.
        + apply andb_prop in Ed. destruct Ed as [E1 E2]. apply Nat.leb_le in E1. apply Nat.eqb_eq in E2.
          apply (Stop (S i) (Some (pos s0)) y s' c); auto. split; [lia|]. right. split; [lia|].
          f_equal. apply Hp. auto.
        + replace (mn - i - 1) with (mn - S i) by lia.
          replace (match minus_max mx i with Some k => Some (k - 1) | None => None end) with (minus_max mx (S i))
            by (unfold minus_max; destruct mx; [f_equal; lia|reflexivity]).
          apply (IH (S i) (Some (pos s0)) y s' c); auto.
          * exists (pos s0). split; auto. intros Q1 Q2. apply Hp in Q2.
            destruct (Nat.leb_spec (mn - i) 1); [|lia]. rewrite Q2, Nat.eqb_refl in Ed. discriminate.
          * eapply sameout_trans; [exact So|]. rewrite <- V0. eapply sameout_wide; [| |exact So']; lia. }
    fold d. fold xr.
    assert (Hs : step E s =
      if S i <=? mn then enter_atom t (S i) (push_next (JTerm t (S i + 1) (pos s) (nextp s)) s)
      else if g then
        let s1 := push_saved (JGreedy (vnum s) (pos s) (nextp s)) s in
        enter_atom t (S i) (push_next (JTerm t (S i + 1) (pos s) (nextp s)) s1)
      else res Next (push_saved (JLazy (vnum s) t (S i) (pos s) (nextp s)) s)).
    { unfold step. rewrite K. unfold term_step. cbn [t t_mn t_mx t_greedy].
      replace ((mn =? 0) && _) with false; [|symmetry].
      2:{ destruct mx as [[|m]|]; [lia| |]; apply andb_false_r. }
      replace ((mn <? S i) && _) with false; [reflexivity|symmetry].
      destruct (Nat.ltb_spec mn (S i)) as [Hmi|]; [|reflexivity]. cbn [andb].
      apply orb_false_intro.
      - destruct mx as [m|]; auto. apply Nat.ltb_ge. lia.
      - destruct i as [|i]; [reflexivity|]. destruct Hi as (q & -> & Hq). apply andb_false_intro2.
        apply Nat.eqb_neq. apply Hq. lia. }
    destruct (Nat.leb_spec (S i) mn) as [Hmn|Hmn].
    { destruct (Nat.eqb_spec (mn - i) 0); [lia|]. cbn [negb].
      destruct (Iter s [] ltac:(rewrite app_nil_r; reflexivity) eq_refl eq_refl eq_refl eq_refl eq_refl Gd (agree_refl _ _)) as (s1 & Q & O).
      rewrite Q in Hs. unfold outcome. eapply o_step; [exact Hs|]. exact O. }
    destruct (Nat.eqb_spec (mn - i) 0); [|lia]. cbn [negb].
    assert (Lv : length (vec s) = L2) by apply Gd.
    destruct g.
    - set (j := JGreedy (vnum s) (pos s) (nextp s)) in *.
      destruct (Iter (push_saved j s) [j]) as (s1 & Q & O); auto.
      { apply good_saved; auto. }
      { cbn [vmem push_saved]. destruct Gd as (_ & <- & B & _). apply agree_save. auto. }
      cbv zeta in Hs. cbn [pos nextp push_saved] in Q. fold (push_saved j s) in Q. rewrite Q in Hs.
      unfold outcome. apply o_choice with (j := j) (v := vec s); auto; try apply Gd.
      + eapply o_step; [exact Hs|]. cbn [jobs vnum rv vmem push_saved] in O. rewrite Lv in O. exact O.
      + intros s' J' V' R' A' B' L' Rs. unfold run_job, j. rewrite Rs.
        eexists. split; [reflexivity|].
        match goal with |- outc _ ?s2 _ _ _ _ _ => apply o_mem with (vmem s'); [auto|];
          assert (Q2 : outcome sg s2 (c x)) end.
        { match goal with |- outcome _ ?s2 _ => apply (use_cont sg fwd gs ge (vec s) (nextp s) c (jobs s) (vmem s) s2 x C) end;
            cbn [k nextp jobs rv vmem pos vec]; auto using agree_refl, sameout_refl.
          - congruence.
          - unfold good. cbn [vec vnum jobs vmem]. rewrite J', V'. destruct Gd as (g1 & g2 & g3 & g4). auto.
          - destruct Gd as (_ & <- & _). auto. }
        unfold outcome in Q2. cbn [jobs vnum rv vmem] in Q2. rewrite J', V', R' in Q2 |- *. exact Q2.
    - set (j := JLazy (vnum s) t (S i) (pos s) (nextp s)) in *. unfold res in Hs. cbn [pos rv vec nextp jobs vmem vnum push_saved] in Hs.
      unfold outcome. apply o_choice with (j := j) (v := vec s); auto; try apply Gd.
      + eapply o_step; [exact Hs|]. rewrite Lv.
        match goal with |- outc _ ?s2 _ _ _ _ _ => change (outcome sg s2 (c x)); apply (C s2 x [j]) end;
          cbn [k nextp jobs rv vmem pos vec]; auto using sameout_refl.
        * rewrite <- Lv. apply good_saved; auto.
        * destruct Gd as (_ & <- & B & _). apply agree_save. auto.
      + intros s' J' V' R' A' B' L' Rs. unfold run_job, j. rewrite Rs.
        destruct (Iter (Cfg (k s') (pos s) (rv s') (vec s) (nextp s) (jobs s') (vmem s') (vnum s')) []) as (s1 & Q & O); auto.
        { rewrite app_nil_r. auto. }
        { unfold good. cbn [vec vnum jobs vmem]. rewrite J', V'. destruct Gd as (g1 & g2 & g3 & g4). auto. }
        { cbn [vmem]. destruct Gd as (_ & <- & _). auto. }
        exists s1. split; [exact Q|]. apply o_mem with (vmem s'); auto.
        cbn [jobs vnum rv vmem] in O. rewrite J', V', R' in O. exact O.
  Qed.
  Lemma term_ok : forall a mn mx gs ge g, Pa a -> Qt (Term a mn mx gs ge g).
  Proof.
    intros a mn mx gs ge g Ha sg fwd gs0 ge0 x s c N Fl K P C.
    cbn [num_term] in N. destruct (Nat.eqb_spec gs gs0) as [<-|]; [|discriminate]. cbn [andb] in N.
    destruct (match mx with Some m => mn <=? m | None => true end) eqn:Em; [|discriminate].
    destruct (num_atom a gs) as [g'|] eqn:Na; [|discriminate].
    destruct (Nat.eqb_spec g' ge) as [->|]; [|discriminate]. injection N as <-.
    pose proof P as (R & Gd & Re & U & P1 & P2 & P3 & P4 & P5 & So).
    assert (Mn : match mx with Some m => mn <= m | None => True end).
    { destruct mx; auto. apply Nat.leb_le. auto. }
    assert (Gen : outcome sg s (repeat_matcher true (mn + n + 2) (m_atom W true a fwd) mn mx g gs ge x c)).
    { replace mn with (mn - 0) at 2 by lia. replace mx with (minus_max mx 0) by (destruct mx; cbn; [f_equal; lia|reflexivity]).
      apply (loop_ok a mn mx gs ge g sg fwd) with (p := None); auto. destruct mx; lia || auto. }
    destruct (Nat.eq_dec mn 1) as [->|N1].
    2:{ destruct mn as [|[|mn]]; try exact Gen; lia. }
    destruct mx as [m|]; [|exact Gen]. destruct (Nat.eq_dec m 1) as [->|N2].
    2:{ destruct m as [|[|m]]; try exact Gen; lia. }
    cbn [m_term]. set (t := Term a 1 (Some 1) gs ge g) in *.
    assert (Hs : step E s = enter_atom t 1 (push_next (JTerm t (1 + 1) (pos s) (nextp s)) s)).
    { unfold step. rewrite K. reflexivity. }
    destruct (iteration a t sg fwd gs ge 0 x s c) as (s1 & Q & O); auto.
    - intros s' y T K' N' J' NT R' Gd' Ag' Re' So'.
      assert (Hs' : step E s' = res Next s'). { unfold step. rewrite K'. reflexivity. }
      unfold res in Hs'. eapply o_goto; [exact Hs'|cbn [jobs vnum rv vmem]; auto using agree_refl..|].
      apply (C _ y T); cbn [k nextp jobs rv vmem pos vec]; auto.
    - rewrite Q in Hs. unfold outcome. eapply o_step; [exact Hs|]. exact O.
  Qed.
  Lemma all_ok : (forall a, Pa a) /\ (forall t, Qt t) /\ (forall p, Forall (Forall Qt) p).
  Proof.
    split; [|split]; [apply atom_tree with (Q := Qt)|apply term_tree with (P := Pa)|apply pat_tree with (P := Pa)];
      intros; auto using atom_back, atom_name, atom_pat, atom_group, atom_look, term_ok;
      try (apply atom_sets; exact I); try (apply atom_assertions; exact I).
  Qed.

  (** * a whole match *)
  Lemma run_star : forall s s' o, star s s' -> step E s' = o -> (forall s2, o <> Go s2) ->
    exists fuel, run E fuel s = Some o.
  Proof.
    intros s s' o H. revert o. induction H as [s|s s1 s2 H Hs IH]; intros o Ho No.
    - exists 1. cbn [run]. rewrite Ho. destruct o; auto. exfalso. eapply No; eauto.
    - destruct (IH o Ho No) as (f & Q). exists (S f). cbn [run]. rewrite H. auto.
  Qed.
  Lemma vget_repeat : forall m i, vget (repeat (-1)%Z m) i = (-1)%Z.
  Proof.
    unfold vget. induction m; intros [|i]; simpl; auto.
  Qed.
  Lemma cap_repeat : forall m i, cap (repeat None m) i = None.
  Proof. unfold cap. induction m; intros [|i]; simpl; auto. Qed.
  Theorem match_ok : forall p i m, well_numbered p G -> (flat \/ forallb (forallb no_back_t) p = true) -> i <= n ->
    match m_match W true p i with
    | Found y => exists fuel v m', run E fuel (start E p (off i) m) = Some (Halt true v m') /\
        length v = L2 /\ e y <= n /\ vget v 0 = Z.of_nat (off i) /\ vget v 1 = Z.of_nat (off (e y)) /\
        length (cs y) = G /\
        (forall j, 1 <= j < G -> vcap v j = offc (cap (cs y) j)) /\
        (forall j a b, cap (cs y) j = Some (a, b) -> a <= b /\ b <= n)
    | Failure => exists fuel v m', run E fuel (start E p (off i) m) = Some (Halt false v m')
    | Out => True
    end.
  Proof.
    intros p i m Wn Fl Hi. unfold well_numbered in Wn. pose proof (num_pat_le _ _ _ Wn) as G1.
    set (v0 := vset (repeat (-1)%Z L2) 0 (Z.of_nat (off i))).
    assert (Lv0 : length v0 = L2) by (unfold v0; rewrite vset_length, repeat_length; reflexivity).
    assert (V0 : vget v0 0 = Z.of_nat (off i)).
    { unfold v0. rewrite vget_vset, repeat_length, Nat.eqb_refl. destruct (Nat.ltb_spec 0 L2); [reflexivity|lia]. }
    assert (Vn : forall j, j <> 0 -> vget v0 j = (-1)%Z).
    { intros j Hj. unfold v0. rewrite vget_vset. destruct (Nat.eqb_spec 0 j); [lia|]. apply vget_repeat. }
    set (x := St i (repeat None (ngroups W))).
    set (s := start E p (off i) m).
    assert (Sv : vec s = v0) by reflexivity.
    set (sg := {| lo := 1; hi := G; vs := v0; acc := fun y s2 => k s2 = KRes Success /\ length (vec s2) = L2 /\
        e y <= n /\ vget (vec s2) 0 = Z.of_nat (off i) /\ vget (vec s2) 1 = Z.of_nat (off (e y)) /\
        length (cs y) = G /\
        (forall j, 1 <= j < G -> vcap (vec s2) j = offc (cap (cs y) j)) /\
        (forall j a b, cap (cs y) j = Some (a, b) -> a <= b /\ b <= n) |}).
    assert (Re : rep x (pos s) (vec s)).
    { unfold rep, x. cbn [e cs]. spl; auto.
      - rewrite repeat_length. auto.
      - intros j Hj. rewrite cap_repeat. unfold vcap. rewrite Sv, (Vn (2 * j + 1)) by lia. rewrite orb_true_r. reflexivity.
      - intros j a b H. rewrite cap_repeat in H. discriminate. }
    assert (Gd : good s).
    { unfold good. cbn [s start vec vnum jobs vmem]. fold v0. spl; auto; try lia.
      { unfold vcount. cbn [filter is_choice job_vsp length]. lia. }
      intros a j b v H J. destruct a as [|a1 a]; [|destruct a; discriminate]. injection H as <- _. discriminate. }
    assert (O : outcome sg s (m_pat W true p true x Found)).
    { apply (pat_ok p sg true 1 G x s Found); auto; try apply all_ok.
      - unfold pre. cbn [lo hi vs sg rv s start negb]. spl; auto.
        + intros j Hj. change (vget v0 j = (-1)%Z). apply Vn. lia.
        + apply sameout_refl.
      - intros s' y T K' N' J' NT R' Gd' Ag' Re' So'.
        assert (Lv' : length (vec s') = L2) by apply Gd'.
        assert (Hs' : step E s' = Go (Cfg (KRes Success) (pos s') (rv s') (vset (vec s') 1 (Z.of_nat (pos s'))) None (jobs s') (vmem s') (vnum s'))).
        { rewrite (step_next s' 0 JSuccess); auto.
          - cbn [run_job vec]. destruct (Nat.leb_spec 2 (length (vec s'))); [reflexivity|lia].
          - rewrite J'. reflexivity. }
        unfold outcome, outc. eexists. split; [econstructor; [exact Hs'|constructor]|].
        cbn [acc sg k vec]. destruct Re' as (r1 & r2 & r3 & r4 & r5). spl; auto.
        + rewrite vset_length. auto.
        + rewrite vget_vset. cbn [Nat.eqb andb]. rewrite <- (proj2 So') by lia. exact V0.
        + rewrite vget_vset. cbn [Nat.eqb andb]. destruct (Nat.ltb_spec 1 (length (vec s'))); [|lia]. f_equal. auto.
        + intros j Hj. rewrite <- r4 by lia. unfold vcap. rewrite !vget_vset.
          destruct (Nat.eqb_spec 1 (2 * j)); [lia|]. destruct (Nat.eqb_spec 1 (2 * j + 1)); [lia|]. reflexivity. }
    unfold m_match. fold x. destruct (m_pat W true p true x Found) as [|y|]; [| |exact I].
    - cbn [outcome outc] in O. destruct O as (s2 & A & (K2 & J2 & V2 & R2 & M2 & L2' & B2 & S2)).
      pose proof (step_pop s2 [] JSuccess Reject K2 (or_introl eq_refl) J2) as H2. cbn [run_job] in H2. unfold res in H2.
      cbn [pos rv vec nextp jobs vmem vnum job_vsp] in H2.
      match type of H2 with _ = Go ?a => set (s3 := a) in * end.
      destruct (run_star s s3 (Halt false (vec s2) (vmem s2))) as (f & Q).
      + eapply star_trans; [exact A|]. econstructor; [exact H2|constructor].
      + reflexivity.
      + intros; discriminate.
      + exists f, (vec s2), (vmem s2). exact Q.
    - cbn [outcome outc] in O. destruct O as (s2 & A & (K2 & B)).
      destruct (run_star s s2 (Halt true (vec s2) (vmem s2))) as (f & Q); auto.
      + unfold step. rewrite K2. reflexivity.
      + intros; discriminate.
      + exists f, (vec s2), (vmem s2). split; auto.
  Qed.
End sim.
