(** Texts that JSON.parse accepts though they are not JSON. *)
From Coq Require Import List ZArith Bool Lia String.
From Verif Require Import StrModel StrProofs UriProofs JsonModel JsonSpec JsonLexProofs JsonParseProofs.
Import ListNotations.
Local Open Scope Z_scope.
Local Open Scope list_scope.

Definition wsb (c : Z) : bool := (c =? 9) || (c =? 10) || (c =? 13) || (c =? 32).
Lemma wsb_spec c : wsb c = true <-> ws c.
Proof. unfold wsb, ws. rewrite !orb_true_iff, !Z.eqb_eq. tauto. Qed.

Fixpoint trim (s : str) : str := match s with [] => [] | c :: r => if wsb c then trim r else s end.

Lemma trim_spaces w s : spaces w -> trim (w ++ s) = trim s.
Proof. induction 1; cbn [app trim]; [reflexivity|]. rewrite (proj2 (wsb_spec x)) by assumption. exact IHForall. Qed.

Definition first (c : Z) : bool := existsb (Z.eqb c) [110; 116; 102; 45; 34; 91; 123] || ((48 <=? c) && (c <=? 57)).
Definition last_char (c : Z) : bool := existsb (Z.eqb c) [108; 101; 34; 93; 125] || ((48 <=? c) && (c <=? 57)).

Lemma digits_first t : digits1 t -> exists c r, t = c :: r /\ digit c.
Proof. intros [N F]. destruct t; [congruence|]. inversion F; subst. eauto. Qed.
Lemma digits_last t : Forall digit t -> t <> [] -> exists p c, t = p ++ [c] /\ digit c.
Proof.
  intros F N. destruct (exists_last N) as (p & c & ->). exists p, c. split; [reflexivity|].
  rewrite Forall_app in F. destruct F as [_ F]. inversion F; assumption.
Qed.

Lemma number_first t : number t -> exists c r, t = c :: r /\ digit c.
Proof.
  intros (i & f & e & -> & I & _). destruct I as [-> | (d & r & -> & D & _)].
  - exists 48, (f ++ e). split; [reflexivity|unfold digit; lia].
  - exists d, (r ++ f ++ e). split; [reflexivity|unfold digit; lia].
Qed.
Lemma number_last t : number t -> exists p c, t = p ++ [c] /\ digit c.
Proof.
  intros (i & f & e & -> & I & F & E).
  destruct E as [-> | (x & s & r & -> & _ & _ & [N D])].
  - destruct F as [-> | (r & -> & [N D])].
    + destruct I as [-> | (d & r & -> & D & Fr)].
      * exists [], 48. split; [reflexivity|unfold digit; lia].
      * rewrite !app_nil_r. apply digits_last; [constructor; [unfold digit; lia|assumption]|discriminate].
    + destruct (digits_last r D N) as (p & c & -> & Dc). exists (i ++ 46 :: p), c. split; [|assumption].
      rewrite app_nil_r. rewrite app_comm_cons. rewrite app_assoc. reflexivity.
  - destruct (digits_last r D N) as (p & c & -> & Dc). exists (i ++ f ++ x :: s ++ p), c. split; [|assumption].
    rewrite <- !app_assoc. cbn [app]. rewrite <- app_assoc. reflexivity.
Qed.

Lemma digit_first c : digit c -> first c = true /\ last_char c = true.
Proof.
  unfold digit, first, last_char. intros H. rewrite (proj2 (Z.leb_le 48 c)), (proj2 (Z.leb_le c 57)) by lia. rewrite !orb_true_r. auto.
Qed.

Lemma value_first t v : value t v -> exists c r, t = c :: r /\ first c = true.
Proof.
  intros V; inversion V; subst; try (cbn; eexists _, _; split; [reflexivity|reflexivity]).
  - destruct (number_first _ H) as (c & r & -> & D). exists c, r. split; [reflexivity|apply digit_first; assumption].
  - destruct H as (b & -> & _). cbn. eexists _, _; split; reflexivity.
Qed.
Lemma value_last t v : value t v -> exists p c, t = p ++ [c] /\ last_char c = true.
Proof.
  intros V; inversion V; subst.
  - exists (zs "nul"), 108. split; reflexivity.
  - exists (zs "tru"), 101. split; reflexivity.
  - exists (zs "fals"), 101. split; reflexivity.
  - destruct (number_last _ H) as (p & c & -> & D). exists p, c. split; [reflexivity|apply digit_first; assumption].
  - destruct (number_last _ H) as (p & c & -> & D). exists (45 :: p), c. split; [reflexivity|apply digit_first; assumption].
  - destruct H as (b & -> & _). exists ([34] ++ b), 34. split; [rewrite <- app_assoc; reflexivity|reflexivity].
  - exists ([91] ++ w), 93. split; [rewrite <- app_assoc; reflexivity|reflexivity].
  - exists ([91] ++ t0), 93. split; [rewrite <- app_assoc; reflexivity|reflexivity].
  - exists ([123] ++ w), 125. split; [rewrite <- app_assoc; reflexivity|reflexivity].
  - exists ([123] ++ t0), 125. split; [rewrite <- app_assoc; reflexivity|reflexivity].
Qed.

Lemma first_not_ws c : first c = true -> wsb c = false.
Proof.
  intros F. destruct (wsb c) eqn:E; [|reflexivity]. exfalso. apply wsb_spec in E.
  unfold ws in E. destruct E as [-> | [-> | [-> | ->]]]; discriminate.
Qed.
Lemma last_not_ws c : last_char c = true -> wsb c = false.
Proof.
  intros F. destruct (wsb c) eqn:E; [|reflexivity]. exfalso. apply wsb_spec in E.
  unfold ws in E. destruct E as [-> | [-> | [-> | ->]]]; discriminate.
Qed.

Definition starts_ok (s : str) : bool := match trim s with c :: _ => first c | [] => false end.
Definition ends_ok (s : str) : bool := match trim (rev s) with c :: _ => last_char c | [] => false end.

Lemma starts_text w t v r : spaces w -> value t v -> starts_ok (w ++ t ++ r) = true.
Proof.
  intros W V. unfold starts_ok. rewrite trim_spaces by assumption. destruct (value_first _ _ V) as (c & r' & -> & F).
  cbn [app trim]. rewrite (first_not_ws _ F). exact F.
Qed.
Lemma spaces_rev w : spaces w -> spaces (rev w).
Proof. intros W. apply Forall_forall. intros x I. apply in_rev in I. exact (proj1 (Forall_forall _ _) W x I). Qed.
Lemma ends_text p t v w : spaces w -> value t v -> ends_ok (p ++ t ++ w) = true.
Proof.
  intros W V. unfold ends_ok. rewrite !rev_app_distr, <- app_assoc. rewrite trim_spaces by (apply spaces_rev; assumption).
  destruct (value_last _ _ V) as (p' & c & -> & F). rewrite rev_app_distr. cbn [rev app trim].
  rewrite (last_not_ws _ F). exact F.
Qed.

Lemma elements_ends t l : elements t l -> ends_ok t = true.
Proof.
  induction 1; [eapply (ends_text w1); eassumption|].
  revert IHelements. unfold ends_ok. rewrite !rev_app_distr. rewrite <- !app_assoc.
  destruct (trim (rev t')) as [|c r] eqn:E; [discriminate|]. intros L.
  assert (K : forall a b, trim a <> [] -> trim (a ++ b) = trim a ++ b).
  { induction a as [|x a IH]; cbn; intros b N; [congruence|]. destruct (wsb x); [apply IH; assumption|reflexivity]. }
  rewrite K by congruence. rewrite E. exact L.
Qed.
Lemma members_ends t l : members t l -> ends_ok t = true.
Proof.
  induction 1.
  - rewrite !app_assoc. rewrite <- (app_assoc _ t w4). eapply ends_text; eassumption.
  - revert IHmembers. rewrite !app_assoc. generalize ((((((((w1 ++ k) ++ w2) ++ [58]) ++ w3) ++ t) ++ w4) ++ [44])). intros a. unfold ends_ok. rewrite rev_app_distr.
    destruct (trim (rev t')) as [|c r] eqn:E; [discriminate|]. intros L.
    assert (K : forall a b, trim a <> [] -> trim (a ++ b) = trim a ++ b).
    { clear. induction a as [|x a IH]; cbn; intros b N; [congruence|]. destruct (wsb x); [apply IH; assumption|reflexivity]. }
    rewrite K by congruence. rewrite E. exact L.
Qed.

Lemma exists_last_or {A} (l : list A) : l = [] \/ exists a b, l = a ++ [b].
Proof. destruct l as [|x l]; [left; reflexivity|right]. destruct (exists_last (l := x :: l)) as (a & b & E); [discriminate|eauto]. Qed.

(** a text without white space around it is a value *)
Lemma text_value t v c r p d : json_text t v -> t = c :: r -> wsb c = false -> t = p ++ [d] -> wsb d = false -> value t v.
Proof.
  intros (w1 & b & w2 & E & W1 & V & W2) C Nc P Nd.
  destruct w1 as [|x w1].
  - destruct (exists_last_or w2) as [-> | (w & y & ->)].
    + cbn [app] in E. rewrite app_nil_r in E. rewrite E. exact V.
    + exfalso. rewrite P in E. cbn [app] in E. rewrite app_assoc in E. apply app_inj_tail in E. destruct E as [_ ->].
      apply Forall_app in W2. destruct W2 as [_ W2]. inversion W2; subst. apply wsb_spec in H1. congruence.
  - exfalso. rewrite C in E. cbn [app] in E. inversion E; subst. inversion W1; subst. apply wsb_spec in H1. congruence.
Qed.

Lemma not_started t v : starts_ok t = false -> ~ json_text t v.
Proof. intros S (w1 & b & w2 & -> & W1 & V & W2). rewrite (starts_text _ _ _ _ W1 V) in S. discriminate. Qed.

Lemma inner {A} (a b : A) s s' : [a] ++ s ++ [b] = [a] ++ s' ++ [b] -> s = s'.
Proof. intros H. cbn in H. inversion H. apply app_inj_tail in H1. tauto. Qed.

(** [1,] and {"a":1,} *)
Lemma not_array t v s : t = [91] ++ s ++ [93] -> ends_ok s = false -> wsb (hd 0 s) = false -> s <> [] -> ~ json_text t v.
Proof.
  intros T E S N J. apply (text_value t v 91 (s ++ [93]) ([91] ++ s) 93) in J; [|exact T|reflexivity|rewrite <- app_assoc; exact T|reflexivity].
  rewrite T in J. clear T. remember ([91] ++ s ++ [93]) as u eqn:U.
  inversion J; subst u; subst v; try discriminate;
    try (match goal with X : _ ++ _ ++ _ = _ ++ _ ++ _ |- _ => first [discriminate X|apply inner in X; subst s] end).
  - destruct (number_first _ H) as (c & r & C & D). cbn in C. inversion C; subst. unfold digit in D. lia.
  - destruct H as (b & B & _). discriminate.
  - match goal with W : spaces ?w |- _ => destruct w; [congruence|]; inversion W; subst end.
    match goal with W : ws _ |- _ => apply wsb_spec in W end. cbn in S. congruence.
  - match goal with W : elements _ _ |- _ => rewrite (elements_ends _ _ W) in E end. discriminate.
Qed.
Lemma not_object t v s : t = [123] ++ s ++ [125] -> ends_ok s = false \/ hd 0 s <> 34 -> wsb (hd 0 s) = false -> s <> [] -> ~ json_text t v.
Proof.
  intros T E S N J. apply (text_value t v 123 (s ++ [125]) ([123] ++ s) 125) in J; [|exact T|reflexivity|rewrite <- app_assoc; exact T|reflexivity].
  rewrite T in J. clear T. remember ([123] ++ s ++ [125]) as u eqn:U.
  inversion J; subst u; subst v; try discriminate;
    try (match goal with X : _ ++ _ ++ _ = _ ++ _ ++ _ |- _ => first [discriminate X|apply inner in X; subst s] end).
  - destruct (number_first _ H) as (c & r & C & D). cbn in C. inversion C; subst. unfold digit in D. lia.
  - destruct H as (b & B & _). discriminate.
  - match goal with W : spaces ?w |- _ => destruct w; [congruence|]; inversion W; subst end.
    match goal with W : ws _ |- _ => apply wsb_spec in W end. cbn in S. congruence.
  - destruct E as [E|E]; [match goal with W : members _ _ |- _ => rewrite (members_ends _ _ W) in E end; discriminate|].
    assert (K : forall w k n x, spaces w -> literal k n -> hd 0 (w ++ k ++ x) = 34 \/ wsb (hd 0 (w ++ k ++ x)) = true).
    { intros w k n x W (b & -> & _). destruct w; [left; reflexivity|right]. inversion W; subst. apply wsb_spec. assumption. }
    match goal with W : members _ _ |- _ => inversion W; subst end.
    all: match goal with W : spaces ?w, L : literal ?k ?n, X : hd 0 (?w ++ ?k ++ ?x) <> 34 |- _ => destruct (K w k n x W L); congruence end.
Qed.

(** a quoted text *)
Lemma quoted_value t v s : t = [34] ++ s ++ [34] -> json_text t v -> exists w, chars s w.
Proof.
  intros T J. apply (text_value t v 34 (s ++ [34]) ([34] ++ s) 34) in J; [|exact T|reflexivity|rewrite <- app_assoc; exact T|reflexivity].
  rewrite T in J. clear T. remember ([34] ++ s ++ [34]) as u eqn:U.
  inversion J; subst u; subst v; try discriminate;
    try (match goal with X : _ ++ _ ++ _ = _ ++ _ ++ _ |- _ => first [discriminate X|apply inner in X; subst s] end).
  - destruct (number_first _ H) as (c & r & C & D). cbn in C. inversion C; subst. unfold digit in D. lia.
  - destruct H as (b & B & C). apply inner in B. subst s. eauto.
Qed.

(** a text that begins with a digit *)
Lemma digit_value t v c r p d : json_text t v -> t = c :: r -> digit c -> t = p ++ [d] -> wsb d = false -> number t.
Proof.
  intros J C D P Nd. assert (Nc : wsb c = false) by (apply first_not_ws, digit_first; exact D).
  pose proof (text_value t v c r p d J C Nc P Nd) as V. rewrite C in V. rewrite C. unfold digit in D.
  inversion V; first [assumption|exfalso].
  all: try lia.
  match goal with X : literal _ _ |- _ => destruct X as (b & B & _) end. cbn in B. inversion B; subst. lia.
Qed.

Fixpoint drop_digits (s : str) : str := match s with c :: r => if (48 <=? c) && (c <=? 57) then drop_digits r else s | [] => [] end.
Definition numb (t : str) : bool :=
  match t with
  | 48 :: r => match r with [] => true | c :: r' => (c =? 101) || (c =? 69) || ((c =? 46) && negb (match r' with [] => true | _ => false end)) end
  | _ => match drop_digits t with [] => true | c :: r' => (c =? 101) || (c =? 69) || ((c =? 46) && negb (match r' with [] => true | _ => false end)) end
  end.
Lemma drop_run r s : Forall digit r -> drop_digits (r ++ s) = drop_digits s.
Proof.
  induction 1; cbn [app drop_digits]; [reflexivity|]. unfold digit in H. rewrite (proj2 (Z.leb_le 48 x)), (proj2 (Z.leb_le x 57)) by lia. exact IHForall.
Qed.
Lemma numb_spec t : number t -> numb t = true.
Proof.
  intros (i & f & e & -> & I & F & E).
  assert (T : match f ++ e with [] => true | c :: r' => (c =? 101) || (c =? 69) || ((c =? 46) && negb (match r' with [] => true | _ => false end)) end = true
              /\ drop_digits (f ++ e) = f ++ e).
  { destruct F as [-> | (r & -> & [N D])].
    - destruct E as [-> | (x & s & r & -> & [-> | ->] & _)]; cbn; auto.
    - cbn [app]. destruct r; [congruence|]. cbn. auto. }
  destruct T as [T1 T2]. unfold numb. destruct I as [-> | (d & r & -> & D & Fr)].
  - cbn [app]. exact T1.
  - cbn [app]. replace (match d with 48 => _ | _ => _ end) with
      (match drop_digits (d :: r ++ f ++ e) with [] => true | c :: r' => (c =? 101) || (c =? 69) || ((c =? 46) && negb (match r' with [] => true | _ => false end)) end).
    + cbn [drop_digits]. rewrite (proj2 (Z.leb_le 48 d)), (proj2 (Z.leb_le d 57)) by lia. cbn [andb]. rewrite drop_run by assumption.
      rewrite T2. exact T1.
    + destruct d as [|q|q]; try reflexivity. do 6 (destruct q as [q|q|]; try reflexivity). lia.
Qed.
Lemma not_number t v c r p d : numb t = false -> t = c :: r -> digit c -> t = p ++ [d] -> wsb d = false -> ~ json_text t v.
Proof. intros N C D P W J. rewrite (numb_spec _ (digit_value _ _ _ _ _ _ J C D P W)) in N. discriminate. Qed.
Lemma neg_value t v r p d : json_text t v -> t = 45 :: r -> t = p ++ [d] -> wsb d = false -> number r.
Proof.
  intros J C P Nd. pose proof (text_value t v 45 r p d J C eq_refl P Nd) as V. rewrite C in V. clear - V.
  inversion V; subst; try assumption.
  - destruct (number_first _ H) as (c & r' & E & D). inversion E; subst. unfold digit in D. lia.
  - destruct H as (b & B & _). discriminate.
Qed.
Lemma not_negative t v c r p d : t = 45 :: c :: r -> ~ digit c -> t = p ++ [d] -> wsb d = false -> ~ json_text t v.
Proof.
  intros T N P W J. destruct (number_first _ (neg_value t v (c :: r) p d J T P W)) as (c' & r' & E & D). inversion E; subst. auto.
Qed.
