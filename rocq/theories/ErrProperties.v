(** Property C140: the constructors of errors and Error.prototype.toString. *)
From Coq Require Import List ZArith Bool Lia.
From Verif Require Import ErrModel ErrSpec.
Import ListNotations.
Local Open Scope Z_scope.

Ltac cases :=
  repeat (cbn; try match goal with
  | |- context [w_proto ?w] => destruct (w_proto w) eqn:?
  | |- context [match w_string ?w ?v with _ => _ end] => destruct (w_string w v) eqn:?
  | |- context [w_has ?w ?v] => destruct (w_has w v) as [[|]|] eqn:?
  | |- context [match w_cause ?w ?v with _ => _ end] => destruct (w_cause w v) eqn:?
  | |- context [match w_iterate ?w ?v with _ => _ end] => destruct (w_iterate w v) eqn:?
  end).

(** *** C140: errors *)
(** the steps that run code are those of the standard, in order, up to the first that throws *)
Theorem C140_steps : forall w msg opt,
  fst (error_new w msg opt) = happen w (error_steps w msg opt) /\
  (snd (error_new w msg opt) = None <-> existsb (throws w) (error_steps w msg opt) = true).
Proof.
  intros w msg opt. unfold error_new, create, set_message, set_cause, error_steps, string_steps, cause_steps.
  destruct msg, opt; cases; (split; [reflexivity|split; congruence]).
Qed.
Print Assumptions C140_steps.

Theorem C140_aggregate_steps : forall w errs msg opt,
  fst (aggregate_new w errs msg opt) = happen w (error_steps w msg opt ++ [EIterate errs]) /\
  (snd (aggregate_new w errs msg opt) = None <-> existsb (throws w) (error_steps w msg opt ++ [EIterate errs]) = true).
Proof.
  intros w errs msg opt. unfold aggregate_new, create, set_message, set_cause, error_steps, string_steps, cause_steps.
  destruct msg, opt; cases; (split; [reflexivity|split; congruence]).
Qed.
Print Assumptions C140_aggregate_steps.

Ltac props :=
  let P := fresh in
  intros P; inversion P; subst; clear P; cbn;
  repeat split; try reflexivity; intros; cbn in *;
  repeat match goal with
  | H : _ /\ _ |- _ => destruct H
  | H : exists _, _ |- _ => destruct H
  | H : _ \/ _ |- _ => destruct H
  | H : False |- _ => destruct H
  end; try congruence;
  try (repeat match goal with H : Some _ = Some _ |- _ => inversion H; subst; clear H end);
  try congruence; eauto 8;
  try (match goal with H : _ = _ |- _ => inversion H; subst end; eauto 8; fail);
  try (left; congruence); try (right; left; congruence); try (right; right; left; congruence).

(** a new error is an error object with exactly the properties of the standard *)
Theorem C140_error : forall w msg opt o, snd (error_new w msg opt) = Some o ->
  o_kind o = KError /\ has_message w msg o /\ has_cause w opt o /\ has_errors w None o.
Proof.
  intros w msg opt o. unfold error_new, create, set_message, set_cause, has_message, has_cause, has_errors.
  destruct msg, opt; cases; try discriminate; props.
Qed.
Print Assumptions C140_error.

(** so has a new AggregateError; what is missing: it is no error object *)
Theorem C140_aggregate_partial : forall w errs msg opt o, snd (aggregate_new w errs msg opt) = Some o ->
  has_message w msg o /\ has_cause w opt o /\ has_errors w (Some errs) o.
Proof.
  intros w errs msg opt o. unfold aggregate_new, create, set_message, set_cause, has_message, has_cause, has_errors.
  destruct msg, opt; cases; try discriminate; props.
Qed.
Print Assumptions C140_aggregate_partial.

(** the standard makes it with [[ErrorData]] (20.5.7.1.1 step 2) *)
Theorem C140_aggregate_kind_refuted : exists w errs msg opt o,
  snd (aggregate_new w errs msg opt) = Some o /\ o_kind o <> KError.
Proof.
  exists (mkWorld true (fun _ => None) (fun _ => None) (fun _ => None) (fun _ => Some []) None None), (Other 1), Undef, None.
  eexists. split; [reflexivity|discriminate].
Qed.
Print Assumptions C140_aggregate_kind_refuted.

Lemma join_ok : forall n m : text,
  (if is_nil n then m else if is_nil m then n else n ++ [58; 32] ++ m) = joined (filter not_empty [n; m]).
Proof. intros [|a n] [|b m]; reflexivity. Qed.

Lemma text_or_cases : forall w v d,
  (exists t, text_of w v d = Some t /\ text_or w v d = (string_steps v, Some t) /\
     existsb (throws w) (string_steps v) = false /\ happen w (string_steps v) = string_steps v) \/
  (text_or w v d = (string_steps v, None) /\
     existsb (throws w) (string_steps v) = true /\ string_steps v = [EString v] /\ throws w (EString v) = true).
Proof.
  intros w v d. unfold text_or, text_of, string_steps. destruct v as [|t|n]; cbn.
  - left. exists d. repeat split; reflexivity.
  - destruct (w_string w (Text t)) as [x|]; cbn; [left; exists x|right]; repeat split; reflexivity.
  - destruct (w_string w (Other n)) as [x|]; cbn; [left; exists x|right]; repeat split; reflexivity.
Qed.

Lemma happen_app : forall w l r, existsb (throws w) l = false -> happen w (l ++ r) = l ++ happen w r.
Proof.
  induction l as [|e l IH]; cbn; intros r H; [reflexivity|]. apply orb_false_iff in H. destruct H as (A & B).
  rewrite A. f_equal. now apply IH.
Qed.

(** Error.prototype.toString *)
Theorem C140_text : forall w,
  fst (to_string w) = happen w (text_steps w) /\
  (snd (to_string w) = None <-> existsb (throws w) (text_steps w) = true) /\
  (forall t, snd (to_string w) = Some t -> exists nv mv n m,
     w_name w = Some nv /\ w_message w = Some mv /\
     text_of w nv default_name = Some n /\ text_of w mv [] = Some m /\ t = joined (filter not_empty [n; m])).
Proof.
  intros w. unfold to_string, text_steps. destruct (w_name w) as [nv|] eqn:N.
  2: { cbn. rewrite N. cbn. split; [reflexivity|]. split; [split; reflexivity|discriminate]. }
  assert (TN : throws w EGetName = false) by (cbn; now rewrite N).
  cbn [name_steps ask bind]. cbn [happen existsb]. rewrite TN.
  destruct (text_or_cases w nv s_Error) as [(n & A & B & C & D)|(B & C & D & E)]; rewrite B; cbn [bind].
  2: { rewrite D. cbn [app happen existsb fst snd]. rewrite E. cbn. split; [reflexivity|]. split; [split; reflexivity|discriminate]. }
  rewrite happen_app, existsb_app, C by exact C. cbn [orb].
  destruct (w_message w) as [mv|] eqn:M; cbn [ask bind].
  2: { assert (TM : throws w EGetMessage = true) by (cbn; now rewrite M).
       cbn [happen existsb app fst snd name_steps]. rewrite TM. split; [reflexivity|]. split; [split; reflexivity|discriminate]. }
  assert (TM : throws w EGetMessage = false) by (cbn; now rewrite M).
  cbn [happen existsb name_steps]. rewrite TM.
  destruct (text_or_cases w mv []) as [(m & A2 & B2 & C2 & D2)|(B2 & C2 & D2 & E2)]; rewrite B2; cbn [bind].
  2: { rewrite D2. cbn [happen existsb app fst snd]. rewrite E2. cbn [orb]. split; [reflexivity|]. split; [split; reflexivity|discriminate]. }
  rewrite D2, C2. cbn [ret fst snd orb]. rewrite app_nil_r. split; [reflexivity|]. split; [split; discriminate|].
  intros t X. rewrite join_ok in X. inversion X. exists nv, mv, n, m. repeat split; assumption.
Qed.
Print Assumptions C140_text.

Definition world0 : world := mkWorld true (fun v => match v with Text t => Some t | _ => None end)
  (fun o => Some (o =? 5)) (fun _ => Some (Text [9])) (fun _ => Some [Other 3]) (Some (Text [65])) (Some (Text [66])).
Example C140_witness :
  error_new world0 (Text [7]) (Some 5) =
    ([EProto; EString (Text [7]); EHasCause 5; EGetCause 5], Some (mkObject KError [PMessage [7]; PCause (Text [9])])) /\
  error_new world0 Undef (Some 6) = ([EProto; EHasCause 6], Some (mkObject KError [])) /\
  error_new world0 (Other 1) (Some 5) = ([EProto; EString (Other 1)], None) /\
  snd (aggregate_new world0 (Other 2) Undef None) = Some (mkObject KOrdinary [PErrors [Other 3]]) /\
  snd (to_string world0) = Some [65; 58; 32; 66].
Proof. repeat split; reflexivity. Qed.
