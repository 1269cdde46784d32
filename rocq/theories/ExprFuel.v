(** Fuel of the expression parser: more fuel never changes an answer, and the
    fuel of [parse_expr] is always enough. *)
From Coq Require Import List Bool Arith String Lia.
From Verif Require Import ExprModel.
Import ListNotations.

Definition rel {A} (a b : res A) : Prop := a = Out \/ a = b.

Record le (F F' : fns) : Prop := {
  le_parse : forall i p s, rel (fparse F i p s) (fparse F' i p s);
  le_pre : forall i p b s, rel (fpre F i p b s) (fpre F' i p b s);
  le_new : forall i s, rel (fnew F i s) (fnew F' i s);
  le_loop : forall i p l a s, rel (floop F i p l a s) (floop F' i p l a s);
  le_parens : forall s, rel (fparens F s) (fparens F' s);
  le_args : forall b s, rel (fargs F b s) (fargs F' b s);
  le_chain : forall t b s, rel (fchain F t b s) (fchain F' t b s)
}.

Ltac mono1 HF :=
  match goal with
  | |- rel Out _ => left; reflexivity
  | |- rel ?a ?a => right; reflexivity
  | |- rel (floop _ _ _ _ _ _) _ => apply (le_loop _ _ HF)
  | |- rel (fparse _ _ _ _) _ => apply (le_parse _ _ HF)
  | |- rel (fpre _ _ _ _ _) _ => apply (le_pre _ _ HF)
  | |- rel (fnew _ _ _) _ => apply (le_new _ _ HF)
  | |- rel (fparens _ _) _ => apply (le_parens _ _ HF)
  | |- rel (fargs _ _ _) _ => apply (le_args _ _ HF)
  | |- rel (fchain _ _ _ _) _ => apply (le_chain _ _ HF)
  | |- rel (match fparse _ ?i ?p ?s with _ => _ end) _ =>
      destruct (le_parse _ _ HF i p s) as [->| ->]; [left; reflexivity|]
  | |- rel (match fpre _ ?i ?p ?b ?s with _ => _ end) _ =>
      destruct (le_pre _ _ HF i p b s) as [->| ->]; [left; reflexivity|]
  | |- rel (match fnew _ ?i ?s with _ => _ end) _ =>
      destruct (le_new _ _ HF i s) as [->| ->]; [left; reflexivity|]
  | |- rel (match fparens _ ?s with _ => _ end) _ =>
      destruct (le_parens _ _ HF s) as [->| ->]; [left; reflexivity|]
  | |- rel (match fargs _ ?b ?s with _ => _ end) _ =>
      destruct (le_args _ _ HF b s) as [->| ->]; [left; reflexivity|]
  | |- rel (match fchain _ ?t ?b ?s with _ => _ end) _ =>
      destruct (le_chain _ _ HF t b s) as [->| ->]; [left; reflexivity|]
  | |- rel (match ?x with _ => _ end) (match ?x with _ => _ end) => destruct x
  end.

Section Fuel.
Variable strict : bool.
Notation fn := (fn strict).

Lemma le_step f f' : le (fn f) (fn f') -> le (fn (S f)) (fn (S f')).
Proof.
  intros HF. constructor; intros; cbn [ExprModel.fn fparse fpre fnew floop fparens fargs fchain].
  - unfold parse_step. cbv zeta. repeat mono1 HF.
  - unfold pre_step. repeat mono1 HF.
  - unfold new_step. repeat mono1 HF.
  - unfold loop_step. cbv zeta. repeat mono1 HF.
  - unfold parens_step. repeat mono1 HF.
  - unfold args_step. cbv zeta. repeat mono1 HF.
  - unfold chain_step. cbv zeta. repeat mono1 HF.
Qed.

Lemma le_O f : le (fn 0) (fn f).
Proof. constructor; intros; left; reflexivity. Qed.

Lemma le_fn f f' : f <= f' -> le (fn f) (fn f').
Proof.
  revert f'. induction f as [|f IH]; intros f' H; [apply le_O|].
  destruct f' as [|f']; [lia|]. apply le_step, IH. lia.
Qed.

Lemma parse_more f f' i p s a r :
  fparse (fn f) i p s = Ok a r -> f <= f' -> fparse (fn f') i p s = Ok a r.
Proof. intros H L. destruct (le_parse _ _ (le_fn _ _ L) i p s) as [E|E]; congruence. Qed.
Lemma loop_more f f' i p l t s a r :
  floop (fn f) i p l t s = Ok a r -> f <= f' -> floop (fn f') i p l t s = Ok a r.
Proof. intros H L. destruct (le_loop _ _ (le_fn _ _ L) i p l t s) as [E|E]; congruence. Qed.
Lemma parens_more f f' s a r :
  fparens (fn f) s = Ok a r -> f <= f' -> fparens (fn f') s = Ok a r.
Proof. intros H L. destruct (le_parens _ _ (le_fn _ _ L) s) as [E|E]; congruence. Qed.
Lemma args_more f f' b s a r :
  fargs (fn f) b s = Ok a r -> f <= f' -> fargs (fn f') b s = Ok a r.
Proof. intros H L. destruct (le_args _ _ (le_fn _ _ L) b s) as [E|E]; congruence. Qed.
Lemma chain_more f f' t b s a r :
  fchain (fn f) t b s = Ok a r -> f <= f' -> fchain (fn f') t b s = Ok a r.
Proof. intros H L. destruct (le_chain _ _ (le_fn _ _ L) t b s) as [E|E]; congruence. Qed.
Lemma new_more f f' i s a r :
  fnew (fn f) i s = Ok a r -> f <= f' -> fnew (fn f') i s = Ok a r.
Proof. intros H L. destruct (le_new _ _ (le_fn _ _ L) i s) as [E|E]; congruence. Qed.

(** The functions only drop tokens from the front. *)
Definition drops {A} (s : list tok) (x : res A) : Prop :=
  forall a r, x = Ok a r -> List.length r <= List.length s.

Record short (F : fns) : Prop := {
  sh_parse : forall i p s, drops s (fparse F i p s);
  sh_pre : forall i p b s, drops s (fpre F i p b s);
  sh_new : forall i s, drops s (fnew F i s);
  sh_loop : forall i p l a s, drops s (floop F i p l a s);
  sh_parens : forall s, drops s (fparens F s);
  sh_args : forall b s, drops s (fargs F b s);
  sh_chain : forall t b s, drops s (fchain F t b s)
}.

Ltac sh HF x e s2 E :=
  match x with
  | fparse _ _ _ _ => pose proof (sh_parse _ HF _ _ _ e s2 E)
  | fpre _ _ _ _ _ => pose proof (sh_pre _ HF _ _ _ _ e s2 E)
  | fnew _ _ _ => pose proof (sh_new _ HF _ _ e s2 E)
  | floop _ _ _ _ _ _ => pose proof (sh_loop _ HF _ _ _ _ _ e s2 E)
  | fparens _ _ => pose proof (sh_parens _ HF _ e s2 E)
  | fargs _ _ _ => pose proof (sh_args _ HF _ _ e s2 E)
  | fchain _ _ _ _ => pose proof (sh_chain _ HF _ _ _ e s2 E)
  end.

Ltac short1 HF :=
  match goal with
  | H : Ok _ _ = Ok _ _ |- _ => injection H as ? ?; subst; cbn [List.length] in *; lia
  | H : Err = Ok _ _ |- _ => discriminate H
  | H : Out = Ok _ _ |- _ => discriminate H
  | H : floop _ _ _ _ _ _ = Ok _ _ |- _ => apply (sh_loop _ HF) in H; cbn [List.length] in *; lia
  | H : fpre _ _ _ _ _ = Ok _ _ |- _ => apply (sh_pre _ HF) in H; cbn [List.length] in *; lia
  | H : fchain _ _ _ _ = Ok _ _ |- _ => apply (sh_chain _ HF) in H; cbn [List.length] in *; lia
  | H : match ?x with _ => _ end = Ok _ _ |- _ =>
      lazymatch type of x with
      | res _ => let e := fresh "e" in let s2 := fresh "s" in let E := fresh "E" in
                 destruct x as [e s2| |] eqn:E; [sh HF x e s2 E; clear E|discriminate H|discriminate H]
      | _ => destruct x
      end
  end.

Lemma short_step f : short (fn f) -> short (fn (S f)).
Proof.
  intros HF. constructor; intros; intros a0 r H; cbn [ExprModel.fn fparse fpre fnew floop fparens fargs fchain] in H.
  - unfold parse_step in H. cbv zeta in H. repeat short1 HF.
  - unfold pre_step in H. repeat short1 HF.
  - unfold new_step in H. repeat short1 HF.
  - unfold loop_step in H. cbv zeta in H. repeat short1 HF.
  - unfold parens_step in H. repeat short1 HF.
  - unfold args_step in H. cbv zeta in H. repeat short1 HF.
  - unfold chain_step in H. cbv zeta in H. repeat short1 HF.
Qed.

Lemma short_fn f : short (fn f).
Proof.
  induction f as [|f IH]; [|apply short_step, IH].
  constructor; intros; intros ? ? H; discriminate H.
Qed.

(** Enough fuel. *)
Record total (F : fns) (f : nat) : Prop := {
  to_parse : forall i p s, 3 * List.length s + 2 <= f -> fparse F i p s <> Out;
  to_pre : forall i p b s, 3 * List.length s + 3 <= f -> fpre F i p b s <> Out;
  to_new : forall i s, 3 * List.length s + 3 <= f -> fnew F i s <> Out;
  to_loop : forall i p l a s, 3 * List.length s + 1 <= f -> floop F i p l a s <> Out;
  to_parens : forall s, 3 * List.length s + 3 <= f -> fparens F s <> Out;
  to_args : forall b s, 3 * List.length s + 3 <= f -> fargs F b s <> Out;
  to_chain : forall t b s, 3 * List.length s + 1 <= f -> fchain F t b s <> Out
}.

Ltac len := cbn [List.length] in *; lia.
Ltac tot1 HF HS :=
  match goal with
  | |- Ok _ _ <> Out => discriminate
  | |- Err <> Out => discriminate
  | |- floop _ _ _ _ _ _ <> Out => apply (to_loop _ _ HF); len
  | |- fpre _ _ _ _ _ <> Out => apply (to_pre _ _ HF); len
  | |- fchain _ _ _ _ <> Out => apply (to_chain _ _ HF); len
  | |- match ?x with _ => _ end <> Out =>
      lazymatch type of x with
      | res _ =>
          let T := fresh "T" in
          assert (T : x <> Out) by
            (first [apply (to_parse _ _ HF)|apply (to_new _ _ HF)|apply (to_parens _ _ HF)
                   |apply (to_args _ _ HF)|apply (to_chain _ _ HF)]; len);
          let e := fresh "e" in let s2 := fresh "s" in let E := fresh "E" in
          destruct x as [e s2| |] eqn:E;
          [sh HS x e s2 E; clear E T|discriminate|contradiction T; reflexivity]
      | _ => destruct x
      end
  end.

Lemma total_step f : total (fn f) f -> total (fn (S f)) (S f).
Proof.
  intros HF. pose proof (short_fn f) as HS.
  constructor; intros; cbn [ExprModel.fn fparse fpre fnew floop fparens fargs fchain].
  - unfold parse_step. cbv zeta. repeat tot1 HF HS.
  - unfold pre_step. repeat tot1 HF HS.
  - unfold new_step. repeat tot1 HF HS.
  - unfold loop_step. cbv zeta. repeat tot1 HF HS.
  - unfold parens_step. repeat tot1 HF HS.
  - unfold args_step. cbv zeta. repeat tot1 HF HS.
  - unfold chain_step. cbv zeta. repeat tot1 HF HS.
Qed.

Lemma total_fn f : total (fn f) f.
Proof.
  induction f as [|f IH]; [|apply total_step, IH].
  constructor; intros; lia.
Qed.

Lemma parse_expr_total i s : parse_expr strict i s <> Out.
Proof. apply (to_parse _ _ (total_fn _)). lia. Qed.

(** An answer with any fuel is the answer of [parse_expr]. *)
Lemma parse_expr_any f i s a r :
  fparse (fn f) i LOWEST s = Ok a r -> parse_expr strict i s = Ok a r.
Proof.
  intros H. unfold parse_expr.
  set (k := 3 * List.length s + 3).
  destruct (Nat.le_ge_cases f k) as [L|L]; [exact (parse_more _ _ _ _ _ _ _ H L)|].
  destruct (le_parse _ _ (le_fn _ _ L) i 0 s) as [E|E]; [|congruence].
  exfalso. apply (to_parse _ _ (total_fn k) i 0 s); [lia|exact E].
Qed.

End Fuel.
