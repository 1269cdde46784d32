(** What the parser accepts is an expression of the grammar, with that tree. *)
From Coq Require Import List Bool Arith String Lia.
From Verif Require Import ExprModel ExprSpec ExprFuel ExprGrammar.
Import ListNotations.

(** The nonterminals in the order of their priorities. *)
Definition spine (k : nat) : nt :=
  match k with
  | 3 => NCond | 4 => NShort | 5 => NLor | 6 => NLand | 7 => NBor
  | 8 => NBxor | 9 => NBand | 10 => NEq | 11 => NRel | 12 => NShift | 13 => NAdd
  | 14 => NMul | 15 => NExp | 16 => NUnary | 17 => NUpdate | 18 => NLhs
  | _ => NAssi
  end.

(** The next token does not continue the operand. *)
Definition nosuffix (s : list tok) : Prop :=
  match s with
  | (Tdot | Tlb | Tlp | Ttmpl _ | Tqdot) :: _ => False
  | _ => True
  end.
Definition nochain (s : list tok) : Prop :=
  match s with
  | (Tdot | Tlb | Tlp | Ttmpl _) :: _ => False
  | _ => True
  end.
Definition nomember (s : list tok) : Prop :=
  match s with
  | (Tdot | Tlb | Ttmpl _ | Tqdot) :: _ => False
  | _ => True
  end.

Lemma plain_l a b : plain_only (a ++ b) -> plain_only a.
Proof.
  intros (H1 & H2 & H3 & H4). repeat (split; [eapply nopair_l; eassumption|]).
  destruct H4 as [H|H]; [left|right]; intros Hi; apply H, in_or_app; left; exact Hi.
Qed.
Lemma plain_r a b : plain_only (a ++ b) -> plain_only b.
Proof.
  intros (H1 & H2 & H3 & H4). repeat (split; [eapply nopair_r; eassumption|]).
  destruct H4 as [H|H]; [left|right]; intros Hi; apply H, in_or_app; right; exact Hi.
Qed.
Lemma plain_cons k b : plain_only (k :: b) -> plain_only b.
Proof. apply (plain_r [k] b). Qed.

Lemma to_lh_bare t : to_lh t = bare t.
Proof. induction t; cbn; auto. Qed.

Section Sound.
Variable strict : bool.
Notation G := (G strict).
Notation E := (E strict).
Notation L := (L strict).
Notation A := (A strict).
Notation H := (H strict).

(** Climbing the chain productions. *)
Lemma spine_up i k t w j : 2 <= j -> j <= k -> k <= 18 -> G i (spine k) t w -> G i (spine j) t w.
Proof.
  intros Hj Hjk. induction Hjk as [|m Hm IH]; intros Hk HG; [exact HG|].
  apply IH; [lia|]. clear IH.
  assert (Hm2 : 2 <= m) by lia. assert (Hm17 : m <= 17) by lia.
  do 18 (destruct m as [|m]; [first [lia|eapply g_unit; [|exact HG]; constructor]|]). lia.
Qed.

Lemma opt_qdot i t w : G i NOpt t w -> In Tqdot w.
Proof.
  intros HG. inversion HG; subst; try solve [intuition discriminate].
  - match goal with U : unit_rule NOpt _ |- _ => inversion U end.
  - match goal with U : left_op _ = Some (NOpt, _) |- _ =>
      exfalso; destruct o; discriminate U end.
  - match goal with U : ExprSpec.H _ _ _ _ |- _ => destruct (H_cons _ _ _ _ U) as (v & ->) end.
    apply in_or_app. right. left. reflexivity.
Qed.

Definition params_like (t : tree) : bool :=
  match t with ArrowParams _ | PrivRef _ => true | _ => false end.
Lemma no_params_mut :
  (forall i n t w, G i n t w -> params_like t = false) /\
  (forall i es w, E i es w -> params_like (seq es) = false) /\
  (forall es w, L es w -> True) /\
  (forall a w, A a w -> True) /\
  (forall b t w, H b t w -> True).
Proof.
  apply (grammar_mut strict (fun i n t w => params_like t = false)
    (fun i es w => params_like (seq es) = false)
    (fun es w => True) (fun a w => True) (fun b t w => True));
  intros; try exact I; try reflexivity; try assumption.
  - destruct H; reflexivity.
  - destruct es; [assumption|reflexivity].
Qed.
Lemma no_params i n t w : G i n t w -> params_like t = false.
Proof. apply no_params_mut. Qed.

Lemma E_snoc i es w r wr : E i es w -> G i NAssi r wr -> E i (es ++ [r]) (w ++ Tcomma :: wr).
Proof.
  intros HE Hr. induction HE as [i e w He|i e es w ws He HE IH].
  - cbn [app]. apply e_cons; [exact He|apply e_one; exact Hr].
  - rewrite <- app_assoc. cbn [app]. apply e_cons; [exact He|apply IH, Hr].
Qed.

(** What the caller of parse_expr_prio gets. *)
Definition good (prio : nat) : Prop := prio = 0 \/ prio = 2 \/ 6 <= prio <= 16 \/ prio = 20.
Definition concl i prio a w rest : Prop :=
  (prio = 0 -> G i NExpr a w) /\
  (2 <= prio <= 16 -> G i (spine prio) a w) /\
  (prio = 20 -> ~ In Tqdot w -> G i NMember a w /\ nomember rest).

(** The state of the loop. *)
Inductive at_last i prio : nat -> tree -> list tok -> list tok -> Prop :=
  | al_prim acc w s : G i NPrimary acc w -> at_last i prio 21 acc w s
  | al_priv x s : i = true -> prio <= 11 ->
      at_last i prio 21 (PrivRef x) [Tpriv x] (Tkw Kin :: s)
  | al_params x s : prio <= 2 ->
      at_last i prio 21 (ArrowParams x) [Tid x] (Tarrow false :: s)
  | al_member acc w s : G i NMember acc w -> at_last i prio 18 acc w s
  | al_member' acc w s : prio <= 18 -> G i NMember acc w -> at_last i prio 19 acc w s
  | al_new acc w s : prio <= 18 -> G i NNew acc w -> nosuffix s -> at_last i prio 19 acc w s
  | al_call acc w s : prio <= 18 -> G i NCall acc w -> at_last i prio 18 acc w s
  | al_opt acc w s : G i NOpt acc w -> nochain s -> at_last i prio 18 acc w s
  | al_spine last acc w s : 2 <= last <= 17 -> last <> 4 -> prio <= last ->
      G i (spine last) acc w -> at_last i prio last acc w s
  | al_coal acc w s : prio <= 4 -> G i NCoal acc w -> at_last i prio 4 acc w s
  | al_comma es w s : prio = 0 -> 2 <= List.length es -> E i es w ->
      at_last i prio 1 (Comma es) w s.

Definition special (t : tok) : bool :=
  match t with Tkw Kin | Tarrow false => true | _ => false end.

Lemma primary_member i t w : G i NPrimary t w -> G i NMember t w.
Proof. intros. eapply g_unit; [constructor|eassumption]. Qed.
Lemma member_lhs i t w : G i NMember t w -> G i NLhs t w.
Proof. intros. eapply g_unit; [apply u_lhs1|]. eapply g_unit; [constructor|eassumption]. Qed.
Lemma new_lhs i t w : G i NNew t w -> G i NLhs t w.
Proof. intros. eapply g_unit; [apply u_lhs1|eassumption]. Qed.
Lemma call_lhs i t w : G i NCall t w -> G i NLhs t w.
Proof. intros. eapply g_unit; [apply u_lhs2|eassumption]. Qed.
Lemma opt_lhs i t w : G i NOpt t w -> G i NLhs t w.
Proof. intros. eapply g_unit; [apply u_lhs3|eassumption]. Qed.
Lemma coal_short i t w : G i NCoal t w -> G i NShort t w.
Proof. intros. eapply g_unit; [apply u_short2|eassumption]. Qed.

(** The operand so far, as an operand of priority [k]. *)
Lemma at_spine i prio last acc w s k :
  at_last i prio last acc w s -> params_like acc = false ->
  2 <= k <= 18 -> k <= last -> G i (spine k) acc w.
Proof.
  intros HA Hp Hk Hl.
  assert (HL : forall t, G i NLhs t w -> G i (spine k) t w)
    by (intros; apply (spine_up i 18); try lia; assumption).
  destruct HA; try discriminate Hp.
  - apply HL, member_lhs, primary_member; assumption.
  - apply HL, member_lhs; assumption.
  - apply HL, member_lhs; assumption.
  - apply HL, new_lhs; assumption.
  - apply HL, call_lhs; assumption.
  - apply HL, opt_lhs; assumption.
  - apply (spine_up i last); try lia; assumption.
  - apply (spine_up i 4); try lia. apply coal_short; assumption.
  - lia.
Qed.

Lemma at_plain i prio last acc w k s :
  at_last i prio last acc w (k :: s) -> special k = false -> params_like acc = false.
Proof.
  intros HA Hk. inversion HA; subst; try discriminate Hk; try reflexivity;
    eapply no_params; eassumption.
Qed.
Lemma at_lhs i prio last acc w k s :
  at_last i prio last acc w (k :: s) -> special k = false -> 18 <= last -> G i NLhs acc w.
Proof.
  intros HA Hk Hl. apply (at_spine i prio last acc w (k :: s) 18 HA); try lia.
  eapply at_plain; eassumption.
Qed.
Lemma at_mem i prio last acc w k s :
  at_last i prio last acc w (k :: s) -> 18 <= last -> nosuffix (k :: s) = False -> k <> Tqdot ->
  G i NMember acc w \/ (prio <= 18 /\ G i NCall acc w).
Proof.
  intros HA Hl Hn Hk. inversion HA; subst; try solve [left; assumption|right; auto|lia].
  - left. apply primary_member; assumption.
  - exfalso. cbn in Hn. rewrite <- Hn. exact I.
  - exfalso. cbn in Hn. rewrite <- Hn. exact I.
  - exfalso. rewrite <- Hn. assumption.
  - exfalso. rewrite <- Hn. destruct k; try exact I; try contradiction; congruence.
Qed.
Lemma at_base i prio last acc w s :
  at_last i prio last acc w (Tqdot :: s) -> 18 <= last ->
  exists n, (n = NMember \/ n = NCall \/ n = NOpt) /\ G i n acc w.
Proof.
  intros HA Hl. inversion HA; subst; try lia.
  - exists NMember. split; [tauto|]. apply primary_member; assumption.
  - exists NMember. tauto.
  - exists NMember. tauto.
  - contradiction.
  - exists NCall. tauto.
  - exists NOpt. tauto.
Qed.

(** Stopping. *)
Lemma at_stop i prio last acc w s :
  at_last i prio last acc w s -> good prio ->
  (18 <= last -> prio = 20 -> nomember s) ->
  (last = 21 -> match s with
                | Tkw Kin :: _ => i = true -> 11 < prio
                | Tarrow false :: _ => 2 < prio
                | _ => True
                end) ->
  concl i prio acc w s.
Proof.
  intros HA Hg Hm Hsp.
  assert (Hp : params_like acc = false).
  { inversion HA; subst; try (eapply no_params; eassumption); try reflexivity.
    - specialize (Hsp eq_refl eq_refl). lia.
    - specialize (Hsp eq_refl). cbn in Hsp. lia. }
  assert (HS : 2 <= prio <= 16 -> G i (spine prio) acc w).
  { intros Hr. apply (at_spine _ _ _ _ _ _ prio HA Hp); [lia|].
    inversion HA; subst; try lia. }
  split; [|split; [exact HS|]].
  - intros ->. assert (Hl : 2 <= last \/ last = 1) by (inversion HA; subst; lia).
    destruct Hl as [Hl|Hl].
    + apply (g_expr strict i [acc] w), e_one.
      apply (at_spine _ _ _ _ _ _ 2 HA Hp); lia.
    + subst last. inversion HA; subst; try lia.
      replace (Comma es) with (seq es); [apply g_expr; assumption|].
      destruct es as [|? [|? es]]; cbn in *; try lia. reflexivity.
  - intros -> Hq. split.
    + inversion HA; subst; try lia; try assumption.
      * apply primary_member; assumption.
      * exfalso. apply Hq. eapply opt_qdot; eassumption.
    + apply Hm; [|reflexivity]. inversion HA; subst; lia.
Qed.

Definition LC i prio last acc s a rest w : Prop :=
  forall w0, good prio -> at_last i prio last acc w0 s -> plain_only (w0 ++ w) ->
  concl i prio a (w0 ++ w) rest.

(** One more piece of the operand. *)
Lemma piece i prio last acc s last' acc' s' a rest w' c :
  LC i prio last' acc' s' a rest w' ->
  (forall w0, good prio -> at_last i prio last acc w0 s -> plain_only (w0 ++ c) ->
     at_last i prio last' acc' (w0 ++ c) s') ->
  LC i prio last acc s a rest (c ++ w').
Proof.
  intros HL HA w0 Hg Hat HP. rewrite app_assoc in *. apply HL; [exact Hg| |exact HP].
  apply HA; [exact Hg|exact Hat|]. eapply plain_l; exact HP.
Qed.

Record sound (F : fns) : Prop := {
  so_parse i prio s a rest : fparse F i prio s = Ok a rest ->
    exists w, s = w ++ rest /\ w <> [] /\ (good prio -> plain_only w -> concl i prio a w rest);
  so_pre i prio inc s a rest : fpre F i prio inc s = Ok a rest ->
    exists w, s = w ++ rest /\ (forall nl, good prio -> plain_only (inc_tok inc nl :: w) ->
      concl i prio a (inc_tok inc nl :: w) rest);
  so_new i s a rest : fnew F i s = Ok a rest ->
    exists w, s = w ++ rest /\ (plain_only (Tkw Knew :: w) ->
      G i NMember a (Tkw Knew :: w) \/ (G i NNew a (Tkw Knew :: w) /\ nosuffix rest));
  so_loop i prio last acc s a rest : floop F i prio last acc s = Ok a rest ->
    exists w, s = w ++ rest /\ LC i prio last acc s a rest w;
  so_parens s es rest : fparens F s = Ok es rest ->
    exists w, s = w ++ rest /\ (plain_only w ->
      (es = [] /\ w = [Trp]) \/ (exists w', w = w' ++ [Trp] /\ E true es w'));
  so_args has s es rest : fargs F has s = Ok es rest ->
    exists w, s = w ++ rest /\ (plain_only w ->
      (es = (if has then [Last] else []) /\ w = [Trp]) \/ (exists w', w = w' ++ [Trp] /\ L es w'));
  so_chain left first s a rest : fchain F left first s = Ok a rest ->
    exists w, s = w ++ rest /\ (forall b w0,
      (if first then left = OptBase b /\ w0 = [Tqdot] else H b left w0) ->
      plain_only (w0 ++ w) -> H b a (w0 ++ w) /\ nochain rest)
}.

Section Step.
Variable F : fns.
Hypothesis HF : sound F.

Lemma expr_of i s a rest : fparse F i 0 s = Ok a rest ->
  exists w, s = w ++ rest /\ (plain_only w -> G i NExpr a w).
Proof.
  intros E0. destruct (so_parse F HF _ _ _ _ _ E0) as (w & -> & _ & K).
  exists w. split; [reflexivity|]. intros HP. apply (K ltac:(left; reflexivity) HP). reflexivity.
Qed.
Lemma spine_of i k s a rest : fparse F i k s = Ok a rest -> k = 2 \/ 6 <= k <= 16 ->
  exists w, s = w ++ rest /\ w <> [] /\ (plain_only w -> G i (spine k) a w).
Proof.
  intros E0 Hk. destruct (so_parse F HF _ _ _ _ _ E0) as (w & -> & Hw & K).
  exists w. split; [reflexivity|]. split; [exact Hw|].
  intros HP. apply (K ltac:(unfold good; lia) HP). lia.
Qed.
Lemma args_of s es rest : fargs F false s = Ok es rest ->
  exists w, s = w ++ rest /\ (plain_only w -> A es w).
Proof.
  intros E0. destruct (so_args F HF _ _ _ _ E0) as (w & -> & K).
  exists w. split; [reflexivity|]. intros HP.
  destruct (K HP) as [(-> & ->)|(w' & -> & HL)]; [apply a_nil|apply a_list, HL].
Qed.

Lemma sound_chain left first s a rest : chain_step F left first s = Ok a rest ->
  exists w, s = w ++ rest /\ (forall b w0,
    (if first then left = OptBase b /\ w0 = [Tqdot] else H b left w0) ->
    plain_only (w0 ++ w) -> H b a (w0 ++ w) /\ nochain rest).
Proof.
  assert (NM : forall d p s1, fchain F match p with Tpriv x => PrivMember left x
      | _ => match prop_name p with Some n => Member left n | None => left end end false s1 = Ok a rest ->
      match p with Tpriv _ => True | _ => prop_name p <> None end ->
      (if first then d = [] else d = [Tdot]) ->
      exists w, d ++ p :: s1 = w ++ rest /\ (forall b w0,
        (if first then left = OptBase b /\ w0 = [Tqdot] else H b left w0) ->
        plain_only (w0 ++ w) -> H b a (w0 ++ w) /\ nochain rest)).
  { intros d p s1 E0 Hp Hd. destruct (so_chain F HF _ _ _ _ _ E0) as (w & -> & K).
    exists (d ++ p :: w). split; [rewrite <- app_assoc; reflexivity|]. intros b w0 Hb HP.
    replace (w0 ++ d ++ p :: w) with ((w0 ++ d ++ [p]) ++ w) in * by (rewrite <- !app_assoc; reflexivity).
    apply K; [|exact HP]. destruct first.
    - destruct Hb as (-> & ->). subst d. cbn [app].
      destruct p; cbn [prop_name] in *; try congruence.
      + apply (h_name strict b (Pid x)).
      + apply (h_name strict b (Pkw k)).
      + apply h_priv.
    - subst d. cbn [app]. destruct p; cbn [prop_name] in *; try congruence.
      + apply (h_name' strict b left w0 (Pid x)); exact Hb.
      + apply (h_name' strict b left w0 (Pkw k)); exact Hb.
      + apply h_priv'; exact Hb. }
  intros E0. unfold chain_step in E0. cbv zeta in E0.
  assert (NN : forall d s', match s' with
     | Tpriv x :: s1 => fchain F (PrivMember left x) false s1
     | p :: s1 => match prop_name p with Some n => fchain F (Member left n) false s1 | None => Err end
     | [] => Err end = Ok a rest ->
      (if first then d = [] else d = [Tdot]) ->
      exists w, d ++ s' = w ++ rest /\ (forall b w0,
        (if first then left = OptBase b /\ w0 = [Tqdot] else H b left w0) ->
        plain_only (w0 ++ w) -> H b a (w0 ++ w) /\ nochain rest)).
  { intros d s' E1 Hd. destruct s' as [|p s1]; [discriminate|].
    destruct p; cbn [prop_name] in E1; try discriminate E1;
      (apply NM; [exact E1|try discriminate; exact I|exact Hd]). }
  assert (STOP : first = false -> Ok left s = Ok a rest -> nochain s ->
    exists w, s = w ++ rest /\ (forall b w0,
    (if first then left = OptBase b /\ w0 = [Tqdot] else H b left w0) ->
    plain_only (w0 ++ w) -> H b a (w0 ++ w) /\ nochain rest)).
  { intros -> E1 Hn. injection E1 as <- <-. exists []. split; [reflexivity|].
    intros b w0 Hb HP. rewrite app_nil_r in *. auto. }
  destruct s as [|k s1].
  { destruct first; [discriminate|]. apply STOP; [reflexivity|exact E0|exact I]. }
  destruct k; try (destruct first; [match goal with |- exists w, ?z = _ /\ _ => exact (NN [] z E0 eq_refl) end|apply STOP; [reflexivity|exact E0|exact I]]);
    try discriminate E0.
  - (* ( *)
    destruct (fargs F false s1) as [es s2| |] eqn:E1; try discriminate.
    destruct (args_of _ _ _ E1) as (wa & -> & KA).
    destruct (so_chain F HF _ _ _ _ _ E0) as (w & -> & K).
    exists (Tlp :: wa ++ w). split; [cbn; rewrite <- app_assoc; reflexivity|]. intros b w0 Hb HP.
    replace (w0 ++ Tlp :: wa ++ w) with ((w0 ++ Tlp :: wa) ++ w) in * by (rewrite <- app_assoc; reflexivity).
    apply K; [|exact HP]. pose proof (KA (plain_cons _ _ (plain_r _ _ (plain_l _ _ HP)))) as HA.
    destruct first; [destruct Hb as (-> & ->); apply h_call; exact HA|apply h_call'; assumption].
  - (* [ *)
    destruct (fparse F true 0 s1) as [e [|[] s2]| |] eqn:E1; try discriminate.
    destruct (expr_of _ _ _ _ E1) as (we & -> & KE).
    destruct (so_chain F HF _ _ _ _ _ E0) as (w & -> & K).
    exists (Tlb :: we ++ Trb :: w). split; [cbn; rewrite <- app_assoc; reflexivity|]. intros b w0 Hb HP.
    replace (w0 ++ Tlb :: we ++ Trb :: w) with ((w0 ++ Tlb :: we ++ [Trb]) ++ w) in *
      by (rewrite <- app_assoc; cbn; rewrite <- app_assoc; reflexivity).
    apply K; [|exact HP].
    pose proof (KE (plain_l _ _ (plain_cons _ _ (plain_r _ _ (plain_l _ _ HP))))) as HE.
    destruct first; [destruct Hb as (-> & ->); apply h_index; exact HE|apply h_index'; assumption].
  - (* . *)
    destruct first; [discriminate|]. exact (NN [Tdot] s1 E0 eq_refl).
Qed.

Lemma sound_args has s es rest : args_step F has s = Ok es rest ->
  exists w, s = w ++ rest /\ (plain_only w ->
    (es = (if has then [Last] else []) /\ w = [Trp]) \/ (exists w', w = w' ++ [Trp] /\ L es w')).
Proof.
  intros E0. unfold args_step in E0. cbv zeta in E0.
  set (mk := fun (sp : bool) (e : tree) => if sp then Spread e else Arg e).
  assert (NX : forall (sp : bool) s1,
    match fparse F true ASSI s1 with
    | Ok e s2 => match s2 with
        | Trp :: s1 => Ok [mk sp e] s1
        | Tcomma :: s1 =>
            match fargs F true s1 with
            | Ok es s2 => Ok (mk sp e :: es) s2
            | Err => Err
            | Out => Out
            end
        | _ => Err
        end
    | Err => Err | Out => Out end = Ok es rest ->
    exists w, (if sp then [Tdots] else []) ++ s1 = w ++ rest /\ (plain_only w ->
      (es = (if has then [Last] else []) /\ w = [Trp]) \/ (exists w', w = w' ++ [Trp] /\ L es w'))).
  { intros sp s1 E1. clear E0. set (d := if sp then [Tdots] else []).
    destruct (fparse F true 2 s1) as [e s2| |] eqn:E2; try discriminate.
    destruct (spine_of _ _ _ _ _ E2 ltac:(lia)) as (we & -> & Hwe & KE).
    destruct s2 as [|k s2]; [discriminate|].
    assert (HLst : plain_only (d ++ we) -> L [mk sp e] (d ++ we)).
    { intros HP. destruct sp; [apply l_spread|apply l_one]; apply KE; exact (plain_r _ _ HP). }
    assert (HLcons : forall es' ws, plain_only (d ++ we) -> L es' ws ->
      L (mk sp e :: es') (d ++ we ++ Tcomma :: ws)).
    { intros es' ws HP HL. destruct sp; [apply l_cons_spread|apply l_cons];
        try exact HL; apply KE; exact (plain_r _ _ HP). }
    clearbody mk d.
    destruct k; try discriminate.
    - injection E1 as <- <-. exists (d ++ we ++ [Trp]).
      split; [rewrite <- !app_assoc; reflexivity|]. intros HP. right. exists (d ++ we).
      split; [rewrite <- app_assoc; reflexivity|].
      rewrite app_assoc in HP. apply HLst. eapply plain_l; exact HP.
    - destruct (fargs F true s2) as [es' s3| |] eqn:E3; try discriminate.
      injection E1 as <- <-.
      destruct (so_args F HF _ _ _ _ E3) as (wa & -> & KA).
      exists (d ++ we ++ Tcomma :: wa). split; [rewrite <- !app_assoc; reflexivity|]. intros HP.
      destruct (KA (plain_cons _ _ (plain_r _ _ (plain_r _ _ HP)))) as [(-> & ->)|(w' & -> & HL)].
      + exfalso. destruct HP as (_ & HC & _). rewrite app_assoc in HC.
        specialize (HC (d ++ we) Tcomma Trp [] eq_refl). discriminate HC.
      + right. exists (d ++ we ++ Tcomma :: w'). split; [rewrite <- !app_assoc; reflexivity|].
        apply HLcons; [|exact HL]. rewrite app_assoc in HP. eapply plain_l; exact HP. }
  destruct s as [|k s1]; [exact (NX false [] E0)|].
  destruct k; try exact (NX false _ E0).
  - injection E0 as <- <-. exists [Trp]. split; [reflexivity|]. intros _. left. auto.
  - exact (NX true _ E0).
Qed.

Lemma sound_parens s es rest : parens_step F s = Ok es rest ->
  exists w, s = w ++ rest /\ (plain_only w ->
    (es = [] /\ w = [Trp]) \/ (exists w', w = w' ++ [Trp] /\ E true es w')).
Proof.
  intros E0. unfold parens_step in E0.
  assert (NX : match fparse F true ASSI s with
    | Ok e (Trp :: s1) => Ok [e] s1
    | Ok e (Tcomma :: s1) =>
        match fparens F s1 with
        | Ok es s2 => Ok (e :: es) s2
        | Err => Err
        | Out => Out
        end
    | Out => Out
    | _ => Err
    end = Ok es rest ->
    exists w, s = w ++ rest /\ (plain_only w ->
    (es = [] /\ w = [Trp]) \/ (exists w', w = w' ++ [Trp] /\ E true es w'))).
  { intros E1. clear E0.
    destruct (fparse F true 2 s) as [e s2| |] eqn:E2; try discriminate.
    destruct (spine_of _ _ _ _ _ E2 ltac:(lia)) as (we & -> & Hwe & KE).
    destruct s2 as [|k s2]; [discriminate|]. destruct k; try discriminate.
    - injection E1 as <- <-. exists (we ++ [Trp]). split; [rewrite <- app_assoc; reflexivity|].
      intros HP. right. exists we. split; [reflexivity|]. apply e_one, KE, (plain_l _ _ HP).
    - destruct (fparens F s2) as [es' s3| |] eqn:E3; try discriminate.
      injection E1 as <- <-.
      destruct (so_parens F HF _ _ _ E3) as (wa & -> & KA).
      exists (we ++ Tcomma :: wa). split; [rewrite <- app_assoc; reflexivity|]. intros HP.
      destruct (KA (plain_cons _ _ (plain_r _ _ HP))) as [(-> & ->)|(w' & -> & HL)].
      + exfalso. destruct HP as (_ & HC & _).
        specialize (HC we Tcomma Trp [] eq_refl). discriminate HC.
      + right. exists (we ++ Tcomma :: w'). split; [rewrite <- app_assoc; reflexivity|].
        apply e_cons; [|exact HL]. apply KE. eapply plain_l; exact HP. }
  destruct s as [|k s1]; [exact (NX E0)|].
  destruct k; try exact (NX E0).
  injection E0 as <- <-. exists [Trp]. split; [reflexivity|]. intros _. left. auto.
Qed.

Lemma sound_new i s a rest : new_step F i s = Ok a rest ->
  exists w, s = w ++ rest /\ (plain_only (Tkw Knew :: w) ->
    G i NMember a (Tkw Knew :: w) \/ (G i NNew a (Tkw Knew :: w) /\ nosuffix rest)).
Proof.
  intros E0. unfold new_step in E0.
  assert (NX : match fparse F i MEMBER s with
    | Ok e (Tlp :: s1) =>
        match fargs F false s1 with
        | Ok a s2 => Ok (New e a) s2
        | Err => Err
        | Out => Out
        end
    | Ok e s1 => Ok (New e []) s1
    | Err => Err
    | Out => Out
    end = Ok a rest ->
    exists w, s = w ++ rest /\ (plain_only (Tkw Knew :: w) ->
    G i NMember a (Tkw Knew :: w) \/ (G i NNew a (Tkw Knew :: w) /\ nosuffix rest))).
  { intros E1. clear E0.
    destruct (fparse F i 20 s) as [e s2| |] eqn:E2; try discriminate.
    destruct (so_parse F HF _ _ _ _ _ E2) as (we & -> & Hwe & KE).
    assert (KM : forall v, plain_only (Tkw Knew :: we ++ v) -> G i NMember e we /\ nomember s2).
    { intros v HP. apply (KE ltac:(unfold good; lia)); [|reflexivity|].
      - eapply plain_l, plain_cons; exact HP.
      - destruct HP as (_ & _ & _ & [HP|HP]).
        + exfalso. apply HP. left. reflexivity.
        + intros Hi. apply HP. right. apply in_or_app. left. exact Hi. }
    assert (NA : match s2 with Tlp :: _ => False | _ => True end -> Ok (New e []) s2 = Ok a rest ->
      exists w, we ++ s2 = w ++ rest /\ (plain_only (Tkw Knew :: w) ->
      G i NMember a (Tkw Knew :: w) \/ (G i NNew a (Tkw Knew :: w) /\ nosuffix rest))).
    { intros Hn E3. injection E3 as <- <-. exists we. split; [reflexivity|]. intros HP.
      right. destruct (KM []) as (HM & HN); [rewrite app_nil_r; exact HP|].
      split; [apply g_new; eapply g_unit; [constructor|exact HM]|].
      destruct s2 as [|[] s2]; try exact I; contradiction. }
    destruct s2 as [|k s2]; [apply NA; [exact I|exact E1]|].
    destruct k; try (apply NA; [exact I|exact E1]).
    destruct (fargs F false s2) as [es s3| |] eqn:E3; try discriminate.
    injection E1 as <- <-. destruct (args_of _ _ _ E3) as (wa & -> & KA).
    exists (we ++ Tlp :: wa). split; [rewrite <- app_assoc; reflexivity|]. intros HP. left.
    apply g_new_args; [apply (KM _ HP)|apply KA].
    exact (plain_cons _ _ (plain_r _ _ (plain_cons _ _ HP))). }
  destruct s as [|k s1]; [exact (NX E0)|].
  destruct k; try exact (NX E0).
  - destruct k; try exact (NX E0).
    destruct (fparse F i 19 (Tkw Knew :: s1)) as [e s2| |] eqn:E1; try discriminate.
    injection E0 as <- <-.
    destruct (so_parse F HF _ _ _ _ _ E1) as (we & Ew & Hwe & _).
    exists we. split; [exact Ew|]. intros HP. exfalso.
    destruct we as [|k we]; [congruence|]. injection Ew as <- _.
    destruct HP as (HC & _). specialize (HC [] (Tkw Knew) (Tkw Knew) we eq_refl). discriminate HC.
  - destruct s1 as [|k s2]; [discriminate|]. destruct k; try discriminate.
    destruct (String.eqb x "target") eqn:Ex; [|discriminate].
    apply String.eqb_eq in Ex. subst x. injection E0 as <- <-.
    exists [Tdot; Tid "target"]. split; [reflexivity|]. intros _. left. apply g_new_target.
Qed.

(** The first piece of an operand. *)
Lemma first_piece i prio last acc s a rest c :
  floop F i prio last acc s = Ok a rest -> c <> [] ->
  (good prio -> plain_only c -> at_last i prio last acc c s) ->
  exists w, c ++ s = w ++ rest /\ w <> [] /\ (good prio -> plain_only w -> concl i prio a w rest).
Proof.
  intros E0 Hc Hat. destruct (so_loop F HF _ _ _ _ _ _ _ E0) as (w & -> & K).
  exists (c ++ w). split; [apply app_assoc|]. split; [destruct c; [congruence|discriminate]|].
  intros Hg HP. apply K; [exact Hg| |exact HP]. apply Hat; [exact Hg|]. eapply plain_l; exact HP.
Qed.

Lemma sound_pre i prio inc s a rest : pre_step strict F i prio inc s = Ok a rest ->
  exists w, s = w ++ rest /\ (forall nl, good prio -> plain_only (inc_tok inc nl :: w) ->
    concl i prio a (inc_tok inc nl :: w) rest).
Proof.
  intros E0. unfold pre_step in E0.
  destruct (Nat.ltb_spec 17 prio) as [|Hp]; [discriminate|].
  destruct (fparse F i 16 s) as [e s2| |] eqn:E1; try discriminate.
  destruct (simple_target strict e) eqn:Es; [|discriminate].
  destruct (spine_of _ _ _ _ _ E1 ltac:(lia)) as (we & -> & Hwe & KE).
  destruct (so_loop F HF _ _ _ _ _ _ _ E0) as (w & -> & K).
  exists (we ++ w). split; [apply app_assoc|]. intros nl Hg HP.
  apply (K (inc_tok inc nl :: we) Hg); [|exact HP].
  apply al_spine; [lia|lia|lia|]. apply g_pre; [|apply simple_target_iff; exact Es].
  apply KE. exact (plain_l _ _ (plain_cons _ _ HP)).
Qed.

Lemma sound_parse i prio s a rest : parse_step strict F i prio s = Ok a rest ->
  exists w, s = w ++ rest /\ w <> [] /\ (good prio -> plain_only w -> concl i prio a w rest).
Proof.
  intros E0. unfold parse_step in E0. cbv zeta in E0.
  destruct s as [|k s1]; [discriminate|].
  assert (AT : forall t, atom t k -> floop F i prio 21 t s1 = Ok a rest ->
    exists w, k :: s1 = w ++ rest /\ w <> [] /\ (good prio -> plain_only w -> concl i prio a w rest)).
  { intros t Ht E1. apply (first_piece _ _ _ _ _ _ _ [k] E1); [discriminate|].
    intros _ _. apply al_prim, g_atom, Ht. }
  assert (UN : forall u, prefix k = Some (u, 16) -> un_tok u = k ->
    (if 16 <? prio then Err else
     match fparse F i UNARY s1 with
     | Ok e s2 =>
         if match u with Udelete => delete_operand strict e | _ => true end
         then floop F i prio 16 (Un u e) s2 else Err
     | Err => Err | Out => Out end) = Ok a rest ->
    exists w, k :: s1 = w ++ rest /\ w <> [] /\ (good prio -> plain_only w -> concl i prio a w rest)).
  { intros u _ <- E1. destruct (Nat.ltb_spec 16 prio) as [|Hp]; [discriminate|].
    destruct (fparse F i 16 s1) as [e s2| |] eqn:E2; try discriminate.
    destruct (match u with Udelete => delete_operand strict e | _ => true end) eqn:Ed; [|discriminate].
    destruct (spine_of _ _ _ _ _ E2 ltac:(lia)) as (we & -> & Hwe & KE).
    apply (first_piece _ _ _ _ _ _ _ (un_tok u :: we) E1); [discriminate|].
    intros _ HP. apply al_spine; [lia|lia|lia|]. apply g_unary; [apply KE, (plain_cons _ _ HP)|].
    intros -> Hst Hd. rewrite Hst in Ed. clear - Ed Hd. induction Hd; cbn in Ed; try discriminate. auto. }
  destruct k; try discriminate E0; try solve [eapply AT; [constructor|exact E0]].
  - (* identifier *)
    assert (ID := AT _ (at_id x)).
    destruct s1 as [|k s2]; [exact (ID E0)|]. destruct k; try exact (ID E0).
    destruct (Nat.leb_spec prio 2) as [Hp|Hp]; [|exact (ID E0)].
    destruct nl; [discriminate|].
    apply (first_piece _ _ _ _ _ _ _ [Tid x] E0); [discriminate|]. intros _ _. apply al_params, Hp.
  - (* keyword *)
    destruct k; cbn [prefix] in E0; try discriminate E0; try solve [eapply AT; [constructor|exact E0]].
    all: try (eapply UN; [reflexivity|reflexivity|exact E0]).
    + (* super *) 
      destruct (Nat.ltb_spec 18 prio) as [|Hp]; [discriminate|].
      destruct s1 as [|k s2]; [discriminate|]. destruct k; try discriminate.
      * destruct (fargs F false s2) as [es s3| |] eqn:E1; try discriminate.
        destruct (args_of _ _ _ E1) as (wa & -> & KA).
        apply (first_piece _ _ _ _ _ _ _ (Tkw Ksuper :: Tlp :: wa) E0); [discriminate|].
        intros _ HP. apply al_call; [exact Hp|]. apply g_super_call, KA, (plain_cons _ _ (plain_cons _ _ HP)).
      * destruct (fparse F true 0 s2) as [e [|[] s3]| |] eqn:E1; try discriminate.
        destruct (expr_of _ _ _ _ E1) as (we & -> & KE).
        replace (Tkw Ksuper :: Tlb :: we ++ Trb :: s3) with ((Tkw Ksuper :: Tlb :: we ++ [Trb]) ++ s3)
          by (cbn; rewrite <- app_assoc; reflexivity).
        apply (first_piece _ _ _ _ _ _ _ (Tkw Ksuper :: Tlb :: we ++ [Trb]) E0); [discriminate|].
        intros _ HP. apply al_member, g_super_index, KE.
        exact (plain_l _ _ (plain_cons _ _ (plain_cons _ _ HP))).
      * destruct s2 as [|p s3]; [discriminate|].
        destruct (prop_name p) as [n|] eqn:En; [|discriminate].
        assert (Hn : p = name_tok n) by (destruct p; try discriminate En; injection En as <-; reflexivity).
        subst p. apply (first_piece _ _ _ _ _ _ _ [Tkw Ksuper; Tdot; name_tok n] E0); [discriminate|].
        intros _ _. apply al_member, g_super_name.
    + (* new *)
      destruct (Nat.ltb_spec 19 prio) as [|Hp]; [discriminate|].
      destruct (fnew F i s1) as [e s2| |] eqn:E1; try discriminate.
      destruct (so_new F HF _ _ _ _ E1) as (we & -> & KE).
      apply (first_piece _ _ _ _ _ _ _ (Tkw Knew :: we) E0); [discriminate|].
      intros Hg HP. assert (Hp' : prio <= 18) by (unfold good in Hg; lia).
      destruct (KE HP) as [HM|(HN & Hs)]; [apply al_member'|apply al_new]; assumption.
  - (* private name *)
    destruct s1 as [|k s2]; [discriminate|]. destruct k; try discriminate. destruct k; try discriminate.
    destruct i; [|discriminate]. cbn [negb] in E0.
    destruct (Nat.ltb_spec 11 prio) as [|Hp]; [discriminate|].
    apply (first_piece _ _ _ _ _ _ _ [Tpriv x] E0); [discriminate|]. intros _ _.
    apply al_priv; [reflexivity|exact Hp].
  - (* parentheses *)
    destruct (fparens F s1) as [es s2| |] eqn:E1; try discriminate.
    destruct (paren_content es) as [e|] eqn:Ep; [|discriminate].
    destruct (so_parens F HF _ _ _ E1) as (w & -> & KP).
    assert (E2 : floop F i prio 21 (Parens e) s2 = Ok a rest).
    { destruct s2 as [|k s2]; [exact E0|]. destruct k; try exact E0.
      destruct (prio <=? 2); [discriminate|exact E0]. }
    apply (first_piece _ _ _ _ _ _ _ (Tlp :: w) E2); [discriminate|].
    intros _ HP. apply al_prim.
    destruct (KP (plain_cons _ _ HP)) as [(-> & ->)|(w' & -> & HE)]; [discriminate|].
    replace e with (seq es); [apply g_parens; exact HE|].
    destruct es as [|e1 [|e2 es]]; cbn in Ep |- *; congruence.
  - eapply (UN Uplus); [reflexivity|reflexivity|exact E0].
  - eapply (UN Uneg); [reflexivity|reflexivity|exact E0].
  - eapply (UN Urev); [reflexivity|reflexivity|exact E0].
  - eapply (UN Unot); [reflexivity|reflexivity|exact E0].
  - destruct (so_pre F HF _ _ _ _ _ _ E0) as (w & -> & K).
    exists (Tinc nl :: w). split; [reflexivity|]. split; [discriminate|]. exact (K nl).
  - destruct (so_pre F HF _ _ _ _ _ _ E0) as (w & -> & K).
    exists (Tdec nl :: w). split; [reflexivity|]. split; [discriminate|]. exact (K nl).
Qed.

(** After one piece of the operand the loop goes on. *)
Lemma next_piece i prio last acc s last' acc' s' a rest c :
  floop F i prio last' acc' s' = Ok a rest -> s = c ++ s' ->
  (forall w0, good prio -> at_last i prio last acc w0 s -> plain_only (w0 ++ c) ->
     at_last i prio last' acc' (w0 ++ c) s') ->
  exists w, s = w ++ rest /\ LC i prio last acc s a rest w.
Proof.
  intros E0 -> Hat. destruct (so_loop F HF _ _ _ _ _ _ _ E0) as (w & -> & K).
  exists (c ++ w). split; [apply app_assoc|]. eapply piece; [exact K|exact Hat].
Qed.

(** A binary operator. *)
Lemma bin_piece i prio last acc k s1 o need p q r s2 a rest :
  infix k = Some (o, need, p, q) -> op_allowed i o = true -> left_ok o need last = true ->
  p <? prio = false -> fparse F i q s1 = Ok r s2 -> floop F i prio p (mk_bin o acc r) s2 = Ok a rest ->
  exists w, k :: s1 = w ++ rest /\ LC i prio last acc (k :: s1) a rest w.
Proof.
  intros Hk Ha Hl Hp E1 E0. apply Nat.ltb_ge in Hp.
  assert (Hq : 6 <= q <= 16 /\ k = op_tok o).
  { destruct k; try discriminate Hk.
    - destruct k; try discriminate Hk; injection Hk as <- _ _ <-; split; [lia|reflexivity|lia|reflexivity].
    - injection Hk as <- _ _ <-; split; [lia|reflexivity].
    - injection Hk as <- _ _ <-; split; [lia|reflexivity].
    - destruct o0; try discriminate Hk; injection Hk as <- _ _ <-; split; (lia || reflexivity). }
  destruct Hq as (Hq & Hko).
  destruct (spine_of _ _ _ _ _ E1 (or_intror Hq)) as (wr & -> & Hwr & KR).
  apply (next_piece _ _ _ _ _ _ _ _ _ _ (k :: wr) E0 eq_refl).
  intros w0 Hg Hat HP.
  pose proof (KR (plain_cons _ _ (plain_r _ _ HP))) as HR.
  assert (Hpar : params_like acc = false \/ (exists x, acc = PrivRef x /\ w0 = [Tpriv x] /\ o = Oin /\ i = true)).
  { inversion Hat; subst; try (left; eapply no_params; eassumption); try (left; reflexivity).
    - right. exists x. destruct o; try discriminate. auto.
    - destruct o; discriminate. }
  destruct Hpar as [Hpar|(x & -> & -> & -> & ->)].
  2:{ subst k. injection Hk as <- <- <-. cbn [mk_bin app]. apply al_spine; [lia|lia|lia|].
      apply g_private; [reflexivity|exact HR]. }
  assert (HC : nopair const_op (w0 ++ k :: wr)) by apply HP.
  destruct (left_op o) as [[n m]|] eqn:Ho.
  - (* left associative *)
    assert (Hs : need = p /\ spine p = n /\ spine q = m /\ 5 <= p <= 14 /\ (o <> Oques) /\ (o <> Oexp)).
    { subst k. destruct o; try discriminate Ho; injection Hk as <- <- <-; injection Ho as <- <-;
        repeat split; try reflexivity; try lia; discriminate. }
    destruct Hs as (-> & Hsp & Hsq & Hp14 & Hoq & _).
    assert (Hpl : p <= last).
    { unfold left_ok in Hl. apply orb_true_iff in Hl. destruct Hl as [Hl|Hl]; [apply Nat.leb_le, Hl|].
      destruct o; try discriminate Hl. congruence. }
    pose proof (at_spine _ _ _ _ _ _ p Hat Hpar ltac:(lia) Hpl) as HL.
    assert (Hm : mk_bin o acc r = Bin o acc r).
    { subst k. destruct o; try reflexivity; cbn [mk_bin].
      - unfold mk_and. change const_bool with truth.
        rewrite (const_left _ _ _ _ _ _ _ HL HC ltac:(auto)). reflexivity.
      - unfold mk_or. change const_bool with truth.
        rewrite (const_left _ _ _ _ _ _ _ HL HC ltac:(auto)). reflexivity.
      - congruence. }
    rewrite Hm, Hko. apply al_spine; [lia|lia|exact Hp|]. rewrite Hsp in *. subst m.
    eapply g_left; [exact Ho| |exact HL|exact HR].
    intros ->. exact Ha.
  - destruct o; try discriminate Ho; subst k; injection Hk as <- <- <-.
    + (* ** *)
      unfold left_ok in Hl. rewrite orb_false_r in Hl. apply Nat.leb_le in Hl. cbn [mk_bin op_tok].
      pose proof (at_spine _ _ _ _ _ _ 17 Hat Hpar ltac:(lia) Hl) as HL.
      apply al_spine; [lia|lia|exact Hp|]. apply g_exp; [exact HL|exact HR].
    + (* ?? *)
      assert (HL : exists n, (n = NCoal \/ n = NBor) /\ G i n acc w0).
      { unfold left_ok in Hl. apply orb_true_iff in Hl. destruct Hl as [Hl|Hl].
        - apply Nat.leb_le in Hl. exists NBor. split; [tauto|].
          exact (at_spine _ _ _ _ _ _ 7 Hat Hpar ltac:(lia) Hl).
        - apply Nat.eqb_eq in Hl. subst last. exists NCoal. split; [tauto|].
          inversion Hat; subst; try lia. assumption. }
      destruct HL as (n & Hn & HL).
      cbn [mk_bin op_tok].
      replace (mk_ques acc r) with (Bin Oques acc r).
      * apply al_coal; [exact Hp|]. eapply g_coal; [exact Hn|exact HL|exact HR].
      * pose proof (const_left_ques _ _ _ _ _ _ HL HC) as Hu. unfold nullish in Hu. unfold mk_ques.
        destruct acc; try reflexivity; [rewrite Hu; reflexivity|discriminate Hu].
Qed.

(** A suffix of a member or call expression. *)
Lemma suffix_piece i prio last acc k s1 acc' s' c a rest :
  18 <= last -> nosuffix (k :: s1) = False -> k <> Tqdot ->
  floop F i prio 18 acc' s' = Ok a rest -> k :: s1 = c ++ s' ->
  (forall n w0, n = NMember \/ n = NCall -> G i n acc w0 -> plain_only c -> G i n acc' (w0 ++ c)) ->
  exists w, k :: s1 = w ++ rest /\ LC i prio last acc (k :: s1) a rest w.
Proof.
  intros Hl Hn Hk E0 Es HG. apply (next_piece _ _ _ _ _ _ _ _ _ _ c E0 Es).
  intros w0 Hg Hat HP.
  destruct (at_mem _ _ _ _ _ _ _ Hat Hl Hn Hk) as [HM|(Hp & HC)].
  - apply al_member. apply HG; [tauto|exact HM|exact (plain_r _ _ HP)].
  - apply al_call; [exact Hp|]. apply HG; [tauto|exact HC|exact (plain_r _ _ HP)].
Qed.

Lemma stop_piece i prio last acc s a rest :
  Ok acc s = Ok a rest ->
  (18 <= last -> prio = 20 -> nomember s) ->
  (last = 21 -> match s with
                | Tkw Kin :: _ => i = true -> 11 < prio
                | Tarrow false :: _ => 2 < prio
                | _ => True
                end) ->
  exists w, s = w ++ rest /\ LC i prio last acc s a rest w.
Proof.
  intros E0 H1 H2. injection E0 as <- <-. exists []. split; [reflexivity|].
  intros w0 Hg Hat _. rewrite app_nil_r. eapply at_stop; eassumption.
Qed.

Lemma sound_loop i prio last acc s a rest : loop_step strict F i prio last acc s = Ok a rest ->
  exists w, s = w ++ rest /\ LC i prio last acc s a rest w.
Proof.
  intros E0. unfold loop_step in E0. cbv zeta in E0.
  destruct s as [|k s1].
  { apply stop_piece; [exact E0|intros; exact I|intros; exact I]. }
  assert (ST : Ok acc (k :: s1) = Ok a rest -> special k = false ->
    (18 <= last -> nomember (k :: s1)) ->
    exists w, k :: s1 = w ++ rest /\ LC i prio last acc (k :: s1) a rest w).
  { intros E1 Hs Hn. apply stop_piece; [exact E1|intros; auto|].
    intros _. destruct k; try exact I; [destruct k; try exact I; discriminate|destruct nl; [exact I|discriminate]]. }
  assert (BI : (match infix k with
          | None => Ok acc (k :: s1)
          | Some (o, need, p, q) =>
              if negb (op_allowed i o) then Ok acc (k :: s1) else
              if negb (left_ok o need last) || (p <? prio) then Ok acc (k :: s1) else
              match fparse F i q s1 with
              | Ok r s2 => floop F i prio p (mk_bin o acc r) s2
              | Err => Err
              | Out => Out
              end
          end) = Ok a rest -> nomember (k :: s1) -> (match k with Tarrow false => False | _ => True end) ->
    exists w, k :: s1 = w ++ rest /\ LC i prio last acc (k :: s1) a rest w).
  { intros E1 Hn Hk. destruct (infix k) as [[[[o need] p] q]|] eqn:Ek.
    2:{ apply ST; [exact E1| |intros; exact Hn].
        destruct k; try reflexivity; [destruct k; try reflexivity; discriminate|destruct nl; [reflexivity|contradiction]]. }
    destruct (op_allowed i o) eqn:Ha; cbn [negb] in E1.
    2:{ apply stop_piece; [exact E1|intros; exact Hn|]. intros ->.
        destruct k; try exact I; [|destruct nl; [exact I|contradiction]].
        destruct k; try exact I. injection Ek as <- <- <- <-. cbn in Ha. congruence. }
    destruct (left_ok o need last) eqn:Hl; cbn [negb orb] in E1.
    2:{ apply stop_piece; [exact E1|intros; exact Hn|]. intros ->.
        destruct k; try exact I; [|destruct nl; [exact I|contradiction]].
        destruct k; try exact I. injection Ek as <- <- <- <-. cbn in Hl. congruence. }
    destruct (p <? prio) eqn:Hp.
    { apply stop_piece; [exact E1|intros; exact Hn|]. intros ->.
        destruct k; try exact I; [|destruct nl; [exact I|contradiction]].
        destruct k; try exact I. injection Ek as <- <- <- <-. intros _. apply Nat.ltb_lt, Hp. }
    destruct (fparse F i q s1) as [r s2| |] eqn:E2; try discriminate.
    eapply bin_piece; eassumption. }
  destruct k; try (apply BI; [exact E0|exact I|exact I]).
  - (* template *)
    destruct (Nat.ltb_spec last 18) as [Hl|Hl]; [apply ST; [exact E0|reflexivity|lia]|].
    apply (suffix_piece i prio last acc (Ttmpl n) s1 _ s1 [Ttmpl n] a rest Hl eq_refl ltac:(discriminate) E0 eq_refl).
    intros m w0 Hm HG _. apply g_tagged; assumption.
  - (* ( *)
    destruct (Nat.ltb_spec last 18) as [Hl|Hl]; [apply ST; [exact E0|reflexivity|lia]|].
    destruct (Nat.ltb_spec 18 prio) as [Hp|Hp]; [apply ST; [exact E0|reflexivity|intros; exact I]|].
    cbn [orb] in E0. destruct (fargs F false s1) as [es s2| |] eqn:E1; try discriminate.
    destruct (args_of _ _ _ E1) as (wa & -> & KA).
    apply (next_piece _ _ _ _ _ _ _ _ _ _ (Tlp :: wa) E0 eq_refl).
    intros w0 Hg Hat HP. pose proof (KA (plain_cons _ _ (plain_r _ _ HP))) as HA.
    apply al_call; [exact Hp|].
    destruct (at_mem _ _ _ _ _ _ _ Hat Hl eq_refl ltac:(discriminate)) as [HM|(_ & HC)];
      [apply g_call1|apply g_call2]; assumption.
  - (* [ *)
    destruct (Nat.ltb_spec last 18) as [Hl|Hl]; [apply ST; [exact E0|reflexivity|lia]|].
    destruct (fparse F true 0 s1) as [e [|[] s2]| |] eqn:E1; try discriminate.
    destruct (expr_of _ _ _ _ E1) as (we & -> & KE).
    apply (suffix_piece i prio last acc Tlb (we ++ Trb :: s2) _ s2 (Tlb :: we ++ [Trb]) a rest Hl eq_refl ltac:(discriminate) E0).
    { cbn. rewrite <- app_assoc. reflexivity. }
    intros m w0 Hm HG HP. apply g_index; [exact Hm|exact HG|].
    apply KE. exact (plain_l _ _ (plain_cons _ _ HP)).
  - (* . *)
    destruct (Nat.ltb_spec last 18) as [Hl|Hl]; [apply ST; [exact E0|reflexivity|lia]|].
    destruct s1 as [|p s2]; [discriminate|].
    assert (PN : forall n, prop_name p = Some n -> floop F i prio 18 (Member acc n) s2 = Ok a rest ->
      exists w, Tdot :: p :: s2 = w ++ rest /\ LC i prio last acc (Tdot :: p :: s2) a rest w).
    { intros n En E1.
      apply (suffix_piece i prio last acc Tdot (p :: s2) _ s2 [Tdot; p] a rest Hl eq_refl ltac:(discriminate) E1 eq_refl).
      assert (Hn : p = name_tok n) by (destruct p; try discriminate En; injection En as <-; reflexivity).
      subst p. intros m w0 Hm HG _. apply g_name; assumption. }
    destruct p; cbn [prop_name] in E0; try discriminate E0; try (eapply PN; [reflexivity|exact E0]).
    apply (suffix_piece i prio last acc Tdot (Tpriv x :: s2) _ s2 [Tdot; Tpriv x] a rest Hl eq_refl ltac:(discriminate) E0 eq_refl).
    intros m w0 Hm HG _. apply g_priv; assumption.
  - (* ?. *)
    destruct (Nat.ltb_spec last 18) as [Hl|Hl]; [apply ST; [exact E0|reflexivity|lia]|].
    destruct (fchain F (OptBase acc) true s1) as [e s2| |] eqn:E1; try discriminate.
    destruct (so_chain F HF _ _ _ _ _ E1) as (we & -> & K).
    apply (next_piece _ _ _ _ _ _ _ _ _ _ (Tqdot :: we) E0 eq_refl).
    intros w0 Hg Hat HP. destruct (K acc [Tqdot] (conj eq_refl eq_refl)) as (HH & HN);
      [exact (plain_r _ _ HP)|].
    destruct (at_base _ _ _ _ _ _ Hat Hl) as (n & Hn & HB).
    apply al_opt; [|exact HN]. eapply g_opt; [exact Hn|exact HB|exact HH].
  - (* , *)
    destruct (Nat.leb_spec 1 prio) as [Hp|Hp]; [apply ST; [exact E0|reflexivity|intros; exact I]|].
    destruct (fparse F i 2 s1) as [r s2| |] eqn:E1; try discriminate.
    destruct (spine_of _ _ _ _ _ E1 ltac:(lia)) as (wr & -> & Hwr & KR).
    apply (next_piece _ _ _ _ _ _ _ _ _ _ (Tcomma :: wr) E0 eq_refl).
    intros w0 Hg Hat HP. pose proof (KR (plain_cons _ _ (plain_r _ _ HP))) as HR. cbn in HR.
    assert (Hl : last = 1 \/ 2 <= last) by (inversion Hat; subst; lia).
    destruct Hl as [->|Hl].
    + inversion Hat; subst; try lia. cbn [mk_comma].
      apply al_comma; [lia|rewrite app_length; cbn; lia|]. apply E_snoc; assumption.
    + pose proof (at_plain _ _ _ _ _ _ _ Hat eq_refl) as Hpar.
      pose proof (at_spine _ _ _ _ _ _ 2 Hat Hpar ltac:(lia) Hl) as HG. cbn in HG.
      replace (mk_comma acc r) with (Comma [acc; r]).
      * apply al_comma; [lia|cbn; lia|]. apply e_cons; [exact HG|apply e_one, HR].
      * pose proof (no_comma _ _ _ _ _ HG ltac:(discriminate)). destruct acc; try reflexivity. discriminate.
  - (* ? *)
    destruct (Nat.ltb_spec last 4) as [Hl|Hl]; [apply ST; [exact E0|reflexivity|intros; exact I]|].
    destruct (Nat.ltb_spec 3 prio) as [Hp|Hp]; [apply ST; [exact E0|reflexivity|intros; exact I]|].
    cbn [orb] in E0.
    destruct (fparse F true 2 s1) as [e1 [|[] s2]| |] eqn:E1; try discriminate.
    destruct (fparse F i 2 s2) as [e2 s3| |] eqn:E2; try discriminate.
    destruct (spine_of _ _ _ _ _ E1 ltac:(lia)) as (wa & -> & Hwa & KA).
    destruct (spine_of _ _ _ _ _ E2 ltac:(lia)) as (wb & -> & Hwb & KB).
    apply (next_piece _ _ _ _ _ _ _ s3 _ _ (Tques :: wa ++ Tcolon :: wb) E0).
    { cbn. rewrite <- app_assoc. reflexivity. }
    intros w0 Hg Hat HP. pose proof (plain_cons _ _ (plain_r _ _ HP)) as HP1.
    pose proof (KA (plain_l _ _ HP1)) as HA. pose proof (KB (plain_cons _ _ (plain_r _ _ HP1))) as HB.
    pose proof (at_plain _ _ _ _ _ _ _ Hat eq_refl) as Hpar.
    pose proof (at_spine _ _ _ _ _ _ 4 Hat Hpar ltac:(lia) Hl) as HC. cbn in HA, HB, HC.
    assert (Hn : nopair const_op (w0 ++ Tques :: wa ++ Tcolon :: wb)) by apply HP.
    unfold mk_cond. change const_bool with truth.
    rewrite (const_left _ _ _ _ _ _ _ HC Hn ltac:(auto)).
    apply al_spine; [lia|lia|lia|]. apply g_cond; assumption.
  - (* ++ *)
    destruct nl; [apply ST; [exact E0|reflexivity|intros; exact I]|].
    destruct (Nat.ltb_spec last 18) as [Hl|Hl]; [apply ST; [exact E0|reflexivity|lia]|].
    destruct (Nat.ltb_spec 17 prio) as [Hp|Hp]; [apply ST; [exact E0|reflexivity|intros; exact I]|].
    cbn [orb] in E0. destruct (simple_target strict acc) eqn:Es; [|discriminate].
    apply (next_piece _ _ _ _ _ _ _ _ _ _ [Tinc false] E0 eq_refl).
    intros w0 Hg Hat HP. apply al_spine; [lia|lia|lia|].
    apply (g_post strict i true); [eapply at_lhs; [exact Hat|reflexivity|exact Hl]|apply simple_target_iff, Es].
  - (* -- *)
    destruct nl; [apply ST; [exact E0|reflexivity|intros; exact I]|].
    destruct (Nat.ltb_spec last 18) as [Hl|Hl]; [apply ST; [exact E0|reflexivity|lia]|].
    destruct (Nat.ltb_spec 17 prio) as [Hp|Hp]; [apply ST; [exact E0|reflexivity|intros; exact I]|].
    cbn [orb] in E0. destruct (simple_target strict acc) eqn:Es; [|discriminate].
    apply (next_piece _ _ _ _ _ _ _ _ _ _ [Tdec false] E0 eq_refl).
    intros w0 Hg Hat HP. apply al_spine; [lia|lia|lia|].
    apply (g_post strict i false); [eapply at_lhs; [exact Hat|reflexivity|exact Hl]|apply simple_target_iff, Es].
  - (* assignment *)
    destruct (Nat.ltb_spec last 18) as [Hl|Hl]; [apply ST; [exact E0|reflexivity|lia]|].
    destruct (Nat.ltb_spec 2 prio) as [Hp|Hp]; [apply ST; [exact E0|reflexivity|intros; exact I]|].
    cbn [orb] in E0. destruct (simple_target strict acc) eqn:Es; [|discriminate].
    destruct (fparse F i 2 s1) as [r s2| |] eqn:E1; try discriminate.
    destruct (spine_of _ _ _ _ _ E1 ltac:(lia)) as (wr & -> & Hwr & KR).
    apply (next_piece _ _ _ _ _ _ _ _ _ _ (Tas a0 :: wr) E0 eq_refl).
    intros w0 Hg Hat HP. pose proof (KR (plain_cons _ _ (plain_r _ _ HP))) as HR. cbn in HR.
    apply al_spine; [lia|lia|lia|]. cbn [spine].
    replace (mk_assign a0 acc r) with (Assign a0 (target a0 acc) r).
    + apply g_assign; [eapply at_lhs; [exact Hat|reflexivity|exact Hl]|apply simple_target_iff, Es|exact HR].
    + destruct a0; reflexivity.
  - (* => *)
    destruct nl; [apply ST; [exact E0|reflexivity|intros; exact I]|].
    destruct (Nat.ltb_spec 2 prio) as [Hp|Hp].
    { apply stop_piece; [exact E0|intros; exact I|intros; exact Hp]. }
    cbn [orb] in E0. destruct acc; try discriminate.
    destruct (fparse F i 2 s1) as [r s2| |] eqn:E1; try discriminate.
    destruct (spine_of _ _ _ _ _ E1 ltac:(lia)) as (wr & -> & Hwr & KR).
    apply (next_piece _ _ _ _ _ _ _ _ _ _ (Tarrow false :: wr) E0 eq_refl).
    intros w0 Hg Hat HP. pose proof (KR (plain_cons _ _ (plain_r _ _ HP))) as HR. cbn in HR.
    apply al_spine; [lia|lia|lia|].
    inversion Hat; subst; try (match goal with U : ExprSpec.G _ _ _ (ArrowParams _) _ |- _ =>
      apply no_params in U; discriminate U end).
    apply g_arrow. exact HR.
Qed.

End Step.

Lemma sound_fn f : sound (fn strict f).
Proof.
  induction f as [|f IH]; [constructor; intros; discriminate|].
  constructor; intros; cbn [fn fparse fpre fnew floop fparens fargs fchain] in *.
  - eapply sound_parse; eassumption.
  - eapply sound_pre; eassumption.
  - eapply sound_new; eassumption.
  - eapply sound_loop; eassumption.
  - eapply sound_parens; eassumption.
  - eapply sound_args; eassumption.
  - eapply sound_chain; eassumption.
Qed.

Theorem parse_sound i s a rest :
  parse_expr strict i s = Ok a rest ->
  exists w, s = w ++ rest /\ (plain_only w -> G i NExpr a w).
Proof. intros E0. eapply expr_of; [apply sound_fn|exact E0]. Qed.

End Sound.
