(** Whole for-in loops. *)
From Coq Require Import List ZArith Bool Lia.
Import ListNotations.
From Verif Require Import ForInModel ForInSpec ForInProofs.
Local Open Scope Z_scope.

Lemma run_same rep fuel : forall i s a q, rel rep i s a ->
  (forall ks, In (Keys ks) a -> symbols_last ks) -> (length a < fuel)%nat ->
  run fuel i a q = s_run fuel s a q /\ snd (fst (run fuel i a q)) <> Fuel.
Proof.
  induction fuel as [|fuel IH]; intros i s a q R Sl L; [lia|]. cbn [run s_run].
  pose proof (next_same rep (S fuel) i s a q R Sl L) as X.
  destruct (next _ _ _ _) as [[[o1 i'] a'] q']. destruct (s_next _ _ _ _) as [[[o2 s'] a2] q2].
  destruct X as (-> & -> & NF & Y). destruct o2; try (split; [reflexivity|cbn; congruence]).
  destruct (Y _ eq_refl) as (-> & R' & L' & Inc).
  destruct (IH i' s' a2 q2 R') as (E & N); [intros ks H; apply Sl, Inc, H|lia|].
  rewrite E in N |- *. destruct (s_run _ _ _ _) as [[l o] q3]. split; [reflexivity|exact N].
Qed.

Definition idx_name (ks : list key) (s : list Z) : bool :=
  existsb (fun k => match k with Idx _ => same (name k) s | _ => false end) ks.

Lemma listed_in a k : In k (listed a) <-> exists ks, In (Keys ks) a /\ In k ks.
Proof.
  induction a as [|x a IH]; cbn [listed].
  - split; [intros []|]. intros (? & [] & _).
  - destruct x as [ks|?|?|]; rewrite ?in_app_iff, IH; split.
    + intros [H|(ks' & A & B)]; [exists ks|exists ks']; cbn; auto.
    + intros (ks' & [E|A] & B); [injection E as ->; auto|right; eauto].
    + intros (ks' & A & B). exists ks'; cbn; auto.
    + intros (ks' & [E|A] & B); [discriminate|eauto].
    + intros (ks' & A & B). exists ks'; cbn; auto.
    + intros (ks' & [E|A] & B); [discriminate|eauto].
    + intros (ks' & A & B). exists ks'; cbn; auto.
    + intros (ks' & [E|A] & B); [discriminate|eauto].
Qed.

Lemma stage_listed a : lists_ok a -> index_first (listed a) -> one_form (listed a) ->
  stage (idx_name (listed a)) true (listed a).
Proof.
  intros Ok F O. split; [|exact F]. intros k H. destruct k as [n|s|y]; [| |exact I].
  - split.
    + apply listed_in in H as (ks & A & B). destruct (Ok _ A) as (_ & K).
      rewrite Forall_forall in K. apply K. exact B.
    + apply existsb_exists. exists (Idx n). split; [exact H|]. apply same_spec. reflexivity.
  - cbn. apply not_true_is_false. intros X. apply existsb_exists in X as (k & A & B).
    destruct k as [n|?|?]; try discriminate. apply same_spec in B. apply (O n s A H). auto.
Qed.

Lemma start_rel rep o a : stage rep true (listed a) -> rel rep (new o) (s_new o) a.
Proof.
  intros St. assert (I : inv rep true t_init []).
  { split; [|split].
    - split; [cbn; lia|]. intros _ [|[|b]]; reflexivity.
    - intros s. split; [intros []|]. intros (e & (b & H) & _). destruct b as [|[|b]]; destruct H.
    - intros b e H. destruct b as [|[|b]]; destruct H. }
  destruct o as [o|]; (split; [reflexivity|]; split; [reflexivity|]; exists true; split; [exact I|]).
  - exact St.
  - cbn. split; [left; reflexivity|]. auto.
Qed.

Theorem for_in_same o a : lists_ok a -> index_first (listed a) -> one_form (listed a) ->
  for_in o a = s_for_in o a /\ snd (fst (for_in o a)) <> Fuel.
Proof.
  intros Ok F O. unfold for_in, s_for_in.
  apply (run_same (idx_name (listed a))); [|intros ks H; apply Ok, H|lia].
  apply start_rel, stage_listed; auto.
Qed.

(** *** No name twice *)
Lemma s_scan_vis o rem : forall vis a q,
  match s_scan o rem vis a q with
  | SFound s _ vis' a' _ => ~ In s vis /\ In s vis' /\ incl vis vis' /\ (length a' < length a)%nat
  | SFell vis' a' _ => incl vis vis' /\ (length a' <= length a)%nat
  | SStop w _ => w = Threw \/ w = Wait
  end.
Proof.
  induction rem as [|s rem IH]; intros vis a q; cbn [s_scan]; [split; [apply incl_refl|lia]|].
  destruct (member s vis) eqn:E; [apply IH|]. apply member_false in E.
  assert (J : incl vis (vis ++ [s])) by (intros x H; apply in_app_iff; auto).
  destruct a as [|[?|[[]|]|?|] a]; auto.
  - split; [exact E|]. split; [apply in_app_iff; cbn; auto|]. split; [exact J|cbn; lia].
  - specialize (IH (vis ++ [s]) a (q ++ [QDesc o s])).
    destruct (s_scan _ _ _ _ _); cbn [length]; auto.
    + destruct IH as (A & B & C & D). split; [intros H; apply A, J, H|]. split; [exact B|].
      split; [|lia]. intros x H. apply C, J, H.
    + destruct IH as (A & B). split; [|lia]. intros x H. apply A, J, H.
  - specialize (IH vis a (q ++ [QDesc o s])). destruct (s_scan _ _ _ _ _); cbn [length]; auto.
    + destruct IH as (A & B & C & D). repeat (split; [assumption|]). lia.
    + destruct IH as (A & B). split; [assumption|]. lia.
Qed.

Lemma s_next_vis fuel : forall i a q,
  let '(o, i', _, _) := s_next fuel i a q in
  forall s, o = Yield s -> ~ In s (s_vis i) /\ In s (s_vis i') /\ incl (s_vis i) (s_vis i').
Proof.
  induction fuel as [|fuel IH]; intros i a q; cbn [s_next]; [discriminate|].
  destruct (s_obj i) as [o|]; [|discriminate].
  assert (G : forall rem a q,
    let '(o, i', _, _) :=
      match s_scan o rem (s_vis i) a q with
      | SStop w q => (w, i, a, q)
      | SFound s rem vis a q => (Yield s, mkS (Some o) true rem vis, a, q)
      | SFell vis a q =>
          match a with
          | Proto p :: a => s_next fuel (mkS p false [] vis) a (q ++ [QProto o])
          | Err :: _ => (Threw, i, a, q ++ [QProto o])
          | _ => (Wait, i, a, q ++ [QProto o])
          end
      end in
    forall s, o = Yield s -> ~ In s (s_vis i) /\ In s (s_vis i') /\ incl (s_vis i) (s_vis i')).
  { clear a q. intros rem a q. pose proof (s_scan_vis o rem (s_vis i) a q) as X.
    destruct (s_scan _ _ _ _ _) as [s rem' vis' a' q'|vis' a' q'|w q'].
    - intros s0 E. injection E as <-. cbn [s_vis]. tauto.
    - destruct X as (X & _). destruct a' as [|[?|?|p|] a']; try discriminate.
      specialize (IH (mkS p false [] vis') a' (q' ++ [QProto o])).
      destruct (s_next _ _ _ _) as [[[o' i'] ?] ?]. cbn [s_vis] in IH. intros s E.
      destruct (IH s E) as (A & B & C). split; [intros H; apply A, X, H|]. split; [exact B|].
      intros x H. apply C, X, H.
    - destruct X as [->| ->]; discriminate. }
  destruct (s_was i); [apply G|]. destruct a as [|[?|?|?|] a]; try discriminate. apply G.
Qed.

Lemma s_run_once fuel : forall i a q,
  let l := fst (fst (s_run fuel i a q)) in
  NoDup l /\ forall s, In s l -> ~ In s (s_vis i).
Proof.
  induction fuel as [|fuel IH]; intros i a q; cbn [s_run].
  - split; [constructor|]. intros s [].
  - pose proof (s_next_vis (S fuel) i a q) as X.
    destruct (s_next _ _ _ _) as [[[o i'] a'] q']. destruct o as [s| | | |];
      try (cbn; split; [constructor|]; intros ? []).
    destruct (X s eq_refl) as (A & B & C). specialize (IH i' a' q'). cbn zeta in IH.
    destruct (s_run _ _ _ _) as [[l o] q'']. cbn [fst] in *. destruct IH as (N & D). split.
    + constructor; [|exact N]. intros H. exact (D s H B).
    + intros x [<-|H]; [exact A|]. intros Y. exact (D x H (C x Y)).
Qed.

Theorem for_in_once o a : lists_ok a -> index_first (listed a) -> one_form (listed a) ->
  NoDup (fst (fst (for_in o a))).
Proof.
  intros Ok F O. destruct (for_in_same o a Ok F O) as (-> & _). apply s_run_once.
Qed.

(** *** Objects that do not change *)
Lemma s_next_fuel : forall f f' i a q, (length a < f)%nat -> (length a < f')%nat ->
  s_next f i a q = s_next f' i a q.
Proof.
  induction f as [|f IH]; intros f' i a q L L'; [lia|]. destruct f' as [|f']; [lia|]. cbn [s_next].
  destruct (s_obj i) as [o|]; [|reflexivity].
  assert (G : forall rem a0 q0, (length a0 <= length a)%nat ->
      match s_scan o rem (s_vis i) a0 q0 with
      | SStop w q => (w, i, a0, q)
      | SFound s rem vis a q => (Yield s, mkS (Some o) true rem vis, a, q)
      | SFell vis a q =>
          match a with
          | Proto p :: a => s_next f (mkS p false [] vis) a (q ++ [QProto o])
          | Err :: _ => (Threw, i, a, q ++ [QProto o])
          | _ => (Wait, i, a, q ++ [QProto o])
          end
      end =
      match s_scan o rem (s_vis i) a0 q0 with
      | SStop w q => (w, i, a0, q)
      | SFound s rem vis a q => (Yield s, mkS (Some o) true rem vis, a, q)
      | SFell vis a q =>
          match a with
          | Proto p :: a => s_next f' (mkS p false [] vis) a (q ++ [QProto o])
          | Err :: _ => (Threw, i, a, q ++ [QProto o])
          | _ => (Wait, i, a, q ++ [QProto o])
          end
      end).
  { intros rem a0 q0 Le. pose proof (s_scan_vis o rem (s_vis i) a0 q0) as X.
    destruct (s_scan _ _ _ _ _) as [s rem' vis' a' q'|vis' a' q'|w q']; auto.
    destruct a' as [|[?|?|p|] a']; auto. cbn [length] in X. apply IH; lia. }
  destruct (s_was i); [apply G; lia|]. destruct a as [|[?|?|?|] a]; auto. apply G. cbn; lia.
Qed.

Definition via (x : out * siter * list answer * list query) (fuel : nat) : list (list Z) * out * list query :=
  match x with
  | (Yield s, i, a, q) => let '(l, o, q) := s_run fuel i a q in (s :: l, o, q)
  | (o, _, _, q) => ([], o, q)
  end.
Lemma s_run_via fuel i a q : s_run (S fuel) i a q = via (s_next (S fuel) i a q) fuel.
Proof. reflexivity. Qed.

Lemma run_skip f o s rem vis a q : In s vis ->
  s_run (S f) (mkS (Some o) true (s :: rem) vis) a q = s_run (S f) (mkS (Some o) true rem vis) a q.
Proof.
  intros H. rewrite !s_run_via. cbn [s_next s_obj s_was s_rem s_vis].
  rewrite s_scan_skip by exact H. pose proof (s_scan_vis o rem vis a q) as X.
  destruct (s_scan _ _ _ _ _) as [? ? ? ? ?|? a' ?|w ?]; auto.
  - destruct a' as [|[?|?|p|] a']; reflexivity.
  - destruct X as [->| ->]; reflexivity.
Qed.
Lemma run_hidden f o s rem vis a q : ~ In s vis ->
  s_run (S f) (mkS (Some o) true (s :: rem) vis) (Desc (Some false) :: a) q =
  s_run (S f) (mkS (Some o) true rem (vis ++ [s])) a (q ++ [QDesc o s]).
Proof.
  intros H. rewrite !s_run_via. cbn [s_next s_obj s_was s_rem s_vis s_scan].
  rewrite (proj2 (member_false s vis) H). pose proof (s_scan_vis o rem (vis ++ [s]) a (q ++ [QDesc o s])) as X.
  destruct (s_scan _ _ _ _ _) as [? ? ? ? ?|? a' ?|w ?]; auto.
  - destruct a' as [|[?|?|p|] a']; reflexivity.
  - destruct X as [->| ->]; reflexivity.
Qed.
Lemma run_yield f o s rem vis a q : ~ In s vis ->
  s_run (S f) (mkS (Some o) true (s :: rem) vis) (Desc (Some true) :: a) q =
  let '(l, w, q) := s_run f (mkS (Some o) true rem (vis ++ [s])) a (q ++ [QDesc o s]) in (s :: l, w, q).
Proof.
  intros H. rewrite s_run_via. cbn [s_next s_obj s_was s_rem s_vis s_scan].
  rewrite (proj2 (member_false s vis) H). reflexivity.
Qed.
Lemma run_keys f o ks vis a q :
  s_run (S f) (mkS (Some o) false [] vis) (Keys ks :: a) q =
  s_run (S f) (mkS (Some o) true (strings ks) vis) a (q ++ [QKeys o]).
Proof.
  rewrite !s_run_via. cbn [s_next s_obj s_was s_rem s_vis].
  pose proof (s_scan_vis o (strings ks) vis a (q ++ [QKeys o])) as X.
  destruct (s_scan _ _ _ _ _) as [? ? ? ? ?|? a' ?|w ?]; auto.
  - destruct a' as [|[?|?|p|] a']; reflexivity.
  - destruct X as [->| ->]; reflexivity.
Qed.
Lemma run_proto f o p vis a q : (S (length a) < f)%nat ->
  s_run f (mkS (Some o) true [] vis) (Proto p :: a) q = s_run f (mkS p false [] vis) a (q ++ [QProto o]).
Proof.
  intros L. destruct f as [|f]; [lia|]. rewrite !s_run_via. cbn [s_obj s_was s_rem s_vis s_next s_scan].
  rewrite (s_next_fuel f (S f)) by lia. reflexivity.
Qed.

Lemma strings_app a b : strings (a ++ b) = strings a ++ strings b.
Proof. induction a as [|[]]; cbn; congruence. Qed.

Definition visible (seen : list (list Z)) (p : props) : list (list Z) :=
  strings (map fst (filter (fun x => snd x && negb (member (name (fst x)) seen)) p)).
Definition asked (o : Z) (seen : list (list Z)) (p : props) : list query :=
  map (QDesc o) (filter (fun s => negb (member s seen)) (strings (map fst p))).

Lemma descs_run o seen r q2 w p : forall f vis a q,
  NoDup (strings (map fst p)) ->
  (forall s, In s (strings (map fst p)) -> (In s vis <-> In s seen)) ->
  (length (descs seen p ++ a) < f)%nat ->
  (forall f vis', (length a < f)%nat ->
     (forall s, In s vis' <-> In s vis \/ In s (strings (map fst p))) ->
     s_run f (mkS (Some o) true [] vis') a (q ++ asked o seen p) = (r, w, q2)) ->
  s_run f (mkS (Some o) true (strings (map fst p)) vis) (descs seen p ++ a) q =
    (visible seen p ++ r, w, q2).
Proof.
  induction p as [|(x, e) p IH]; intros f vis a q N V L K.
  - cbn in *. unfold asked in K. cbn in K. rewrite app_nil_r in K. apply K; [exact L|]. cbn. tauto.
  - assert (Dsc : (exists y, x = Sym y) \/
      (strings (map fst ((x, e) :: p)) = name x :: strings (map fst p) /\
       descs seen ((x, e) :: p) = (if member (name x) seen then descs seen p else Desc (Some e) :: descs seen p) /\
       visible seen ((x, e) :: p) =
         (if e && negb (member (name x) seen) then name x :: visible seen p else visible seen p))).
    { unfold visible. cbn [filter fst snd]. destruct x; [right|right|left; eauto];
        cbn [strings map fst descs]; (split; [reflexivity|]; split; [reflexivity|]);
        destruct (e && _); reflexivity. }
    destruct Dsc as [(y & ->)|(E1 & E2 & E3)].
    + assert (visible seen ((Sym y, e) :: p) = visible seen p) as ->.
      { unfold visible. cbn [filter]. destruct (snd _ && _); reflexivity. }
      apply (IH f vis a q N V L). exact K.
    + rewrite E1, E2, E3. rewrite E1 in N, V. rewrite E2 in L. inversion N as [|? ? Nx Np]; subst.
      assert (Vx : In (name x) vis <-> In (name x) seen) by (apply V; cbn; auto).
      assert (Ea : asked o seen ((x, e) :: p) =
        (if member (name x) seen then [] else [QDesc o (name x)]) ++ asked o seen p).
      { unfold asked. rewrite E1. cbn [filter]. destruct (member (name x) seen); reflexivity. }
      rewrite Ea in K.
      assert (V' : forall s, In s (strings (map fst p)) -> (In s (vis ++ [name x]) <-> In s seen)).
      { intros s Hs. rewrite in_app_iff, (V s) by (cbn; auto). cbn. split; [|auto].
        intros [A|[A|[]]]; [exact A|]. congruence. }
      destruct (member (name x) seen) eqn:Em.
      * rewrite andb_false_r. apply member_spec in Em. apply Vx in Em. destruct f as [|f]; [lia|].
        rewrite run_skip by exact Em. apply IH; auto.
        -- intros s Hs. apply V. cbn; auto.
        -- intros f' vis' L' Q. apply K; [exact L'|]. rewrite E1. intros s. rewrite Q. cbn.
           split; [tauto|]. intros [A|[<-|A]]; auto.
      * apply member_false in Em. rewrite andb_true_r. destruct f as [|f]; [lia|]. cbn [app length] in L.
        assert (Nv : ~ In (name x) vis) by tauto.
        assert (K' : forall f vis', (length a < f)%nat ->
          (forall s, In s vis' <-> In s (vis ++ [name x]) \/ In s (strings (map fst p))) ->
          s_run f (mkS (Some o) true [] vis') a ((q ++ [QDesc o (name x)]) ++ asked o seen p) = (r, w, q2)).
        { intros f' vis' L' Q. rewrite <- app_assoc. apply K; [exact L'|]. rewrite E1. intros s.
          rewrite Q, in_app_iff. cbn. tauto. }
        cbn [app]. destruct e.
        -- rewrite run_yield by exact Nv. rewrite IH; auto. lia.
        -- rewrite run_hidden by exact Nv. apply IH; auto. lia.
Qed.

Fixpoint questions (id : Z) (seen : list (list Z)) (c : list props) : list query :=
  match c with
  | [] => []
  | p :: c => QKeys id :: asked id seen p ++ QProto id :: questions (id + 1) (seen ++ strings (map fst p)) c
  end.

Lemma chain_run c : forall id seen vis f q, c <> [] ->
  Forall (fun p => NoDup (strings (map fst p))) c ->
  (forall s, In s vis <-> In s seen) ->
  (length (replies id seen c) < f)%nat ->
  s_run f (mkS (Some id) false [] vis) (replies id seen c) q =
    (expected seen c, Done, q ++ questions id seen c).
Proof.
  induction c as [|p c IH]; intros id seen vis f q Ne Nd V L; [congruence|]. clear Ne.
  inversion Nd as [|? ? Np Nc]; subst. cbn [replies expected questions] in *. cbn [length] in L.
  destruct f as [|f]; [lia|]. rewrite run_keys.
  apply (descs_run id seen (expected (seen ++ strings (map fst p)) c)); [exact Np|auto|lia|].
  intros f' vis' L' Q. cbn [length] in L'. rewrite run_proto by lia.
  destruct c as [|p' c].
  - cbn [replies expected questions]. destruct f'; [lia|]. cbn.
    rewrite <- !app_assoc. reflexivity.
  - rewrite (IH (id + 1) (seen ++ strings (map fst p)) vis' f'); [|discriminate|exact Nc| |lia].
    + rewrite <- !app_assoc. reflexivity.
    + intros s. rewrite Q, in_app_iff, V. tauto.
Qed.

(** the answers are the truth *)
Lemma find_prop (p : props) k e : NoDup (strings (map fst p)) -> In (k, e) p -> (forall y, k <> Sym y) ->
  option_map snd (find (hits (name k)) p) = Some e.
Proof.
  induction p as [|(x, e') p IH]; intros N H K; [destruct H|].
  assert (D : (exists y, x = Sym y) \/
    (strings (map fst ((x, e') :: p)) = name x :: strings (map fst p) /\
     forall b, (match x with Sym _ => false | _ => b end) = b)).
  { destruct x; [right|right|left]; cbn; eauto. }
  cbn [find]. destruct D as [(y & ->)|(E & D)].
  - destruct H as [H|H]; [injection H as <- <-; destruct (K y eq_refl)|]. apply IH; auto.
  - assert (X : hits (name k) (x, e') = if name_dec (name x) (name k) then true else false) by (destruct x; try reflexivity; discriminate (D true)).
    rewrite X. rewrite E in N. inversion N as [|? ? Nx Np]; subst.
    destruct H as [H|H].
    + injection H as -> ->. destruct (name_dec (name k) (name k)); [reflexivity|congruence].
    + destruct (name_dec (name x) (name k)) as [Ex|_]; [|apply IH; auto].
      exfalso. apply Nx. rewrite Ex. clear - H K.
      induction p as [|(z, ?) p IH]; [destruct H|]. destruct H as [H|H].
      * injection H as -> ->. destruct k; cbn; auto. destruct (K y eq_refl).
      * destruct z; cbn; auto.
Qed.

Lemma asked_truth (c0 : list props) seen id (p : props) : nth (Z.to_nat id) c0 [] = p -> NoDup (strings (map fst p)) ->
  map (truth c0) (asked id seen p) = descs seen p.
Proof.
  intros Hp N. unfold asked. rewrite map_map. unfold truth. cbv beta iota. rewrite Hp.
  assert (G : forall p', incl p' p ->
    map (fun s => Desc (option_map snd (find (hits s) p)))
      (filter (fun s => negb (member s seen)) (strings (map fst p'))) = descs seen p').
  { induction p' as [|(x, e) p' IH]; intros Inc; [reflexivity|].
    assert (Inc' : incl p' p) by (intros z Hz; apply Inc; cbn; auto). specialize (IH Inc').
    assert (Hx : In (x, e) p) by (apply Inc; cbn; auto).
    assert (G1 : (forall y, x <> Sym y) -> option_map snd (find (hits (name x)) p) = Some e).
    { intros Kx. apply (find_prop p x e N Hx Kx). }
    destruct x as [n|s|y]; [| |exact IH]; cbn [map fst strings filter descs].
    - destruct (member _ seen); cbn [negb map]; [exact IH|]. rewrite G1 by congruence. rewrite IH. reflexivity.
    - cbn [name] in *. destruct (member _ seen); cbn [negb map]; [exact IH|]. rewrite G1 by congruence. rewrite IH. reflexivity. }
  apply G. apply incl_refl.
Qed.

Lemma questions_truth (c0 c : list props) : forall id seen pre, c0 = pre ++ c -> id = Z.of_nat (length pre) ->
  Forall (fun p => NoDup (strings (map fst p))) c ->
  map (truth c0) (questions id seen c) = replies id seen c.
Proof.
  induction c as [|p c IH]; intros id seen pre E Ei N; [reflexivity|].
  inversion N as [|? ? Np Nc]; subst p. cbn [questions replies map]. rewrite map_app. cbn [map].
  assert (Hn : nth (Z.to_nat id) c0 [] = x).
  { subst c0 id. rewrite Nat2Z.id, app_nth2, Nat.sub_diag by lia. reflexivity. }
  rewrite (asked_truth c0 seen id x Hn Np).
  rewrite (IH (id + 1) _ (pre ++ [x])); [|rewrite <- app_assoc; exact E|rewrite app_length; cbn; lia|exact Nc].
  unfold truth at 1 2. rewrite Hn. do 3 f_equal. f_equal.
  subst c0 id. rewrite Nat2Z.id, app_length. cbn [length].
  destruct c; cbn [length].
  - destruct (Nat.ltb_spec (S (length pre)) (length pre + 1)); [lia|reflexivity].
  - destruct (Nat.ltb_spec (S (length pre)) (length pre + S (S (length c)))); [reflexivity|lia].
Qed.

Lemma listed_app a b : listed (a ++ b) = listed a ++ listed b.
Proof. induction a as [|[?|?|?|] a IH]; cbn; rewrite ?IH, ?app_assoc; auto. Qed.
Lemma descs_listed seen p : listed (descs seen p) = [] /\ forall ks, ~ In (Keys ks) (descs seen p).
Proof.
  induction p as [|([], e) p (IH & IN)]; cbn [descs]; auto; destruct (member _ _); auto;
    (split; [exact IH|]); intros ks [H|H]; try discriminate; exact (IN ks H).
Qed.
Lemma replies_listed c : forall id seen, listed (replies id seen c) = concat (map (map fst) c).
Proof.
  induction c as [|p c IH]; intros; [reflexivity|]. cbn [replies listed].
  rewrite listed_app, (proj1 (descs_listed seen p)). cbn [listed app map concat]. rewrite IH. reflexivity.
Qed.
Lemma replies_keys c : forall id seen ks, In (Keys ks) (replies id seen c) -> In ks (map (map fst) c).
Proof.
  induction c as [|p c IH]; intros id seen ks H; [destruct H|]. cbn [replies] in H.
  destruct H as [H|H]; [injection H as <-; cbn; auto|]. apply in_app_iff in H as [H|[H|H]].
  - destruct (proj2 (descs_listed seen p) ks H).
  - discriminate.
  - cbn. right. eapply IH. exact H.
Qed.

Theorem for_in_static c : c <> [] -> Forall object_ok c ->
  index_first (concat (map (map fst) c)) -> one_form (concat (map (map fst) c)) ->
  exists qs, for_in (Some 0) (replies 0 [] c) = (expected [] c, Done, qs) /\
    map (truth c) qs = replies 0 [] c.
Proof.
  intros Ne Ok F O. exists (questions 0 [] c).
  assert (Nd : Forall (fun p => NoDup (strings (map fst p))) c).
  { eapply Forall_impl; [|exact Ok]. intros p H. apply H. }
  split; [|apply (questions_truth c c 0 [] []); auto].
  assert (L : lists_ok (replies 0 [] c)).
  { intros ks H. apply replies_keys in H. apply in_map_iff in H as (p & <- & H).
    rewrite Forall_forall in Ok. destruct (Ok p H) as (_ & A & B). auto. }
  destruct (for_in_same (Some 0) (replies 0 [] c) L) as (-> & _); [rewrite replies_listed; auto|rewrite replies_listed; auto|].
  unfold s_for_in, s_new. rewrite (chain_run c 0 [] [] _ [] Ne Nd); [reflexivity|tauto|lia].
Qed.
