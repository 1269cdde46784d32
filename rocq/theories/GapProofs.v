(** Proofs about the gaps between tokens. *)
From Coq Require Import List ZArith Bool Lia.
From Verif Require Import GapModel GapSpec.
Import ListNotations.
Local Open Scope Z_scope.

Definition z (b : bool) : Z := if b then 1 else 0.
Lemma get_cons : forall c r ln n, get (Inp (c :: r) ln n) = (Some c, Inp r (ln + z n) (is_lt c)).
Proof. intros c r ln [|]; unfold get, z; cbn [rest line nl]; [reflexivity|rewrite Z.add_0_r; reflexivity]. Qed.
Lemma get_nil : forall ln n, get (Inp [] ln n) = (None, Inp [] (ln + z n) false).
Proof. intros ln [|]; unfold get, z; cbn [rest line nl]; [reflexivity|rewrite Z.add_0_r; reflexivity]. Qed.

Lemma is_lt_true : forall c, terminator c -> is_lt c = true.
Proof. intros c H. unfold terminator in H. cbn in H. unfold is_lt. destruct H as [<-|[<-|[<-|[<-|[]]]]]; reflexivity. Qed.
Lemma is_lt_false : forall c, ~ terminator c -> is_lt c = false.
Proof.
  intros c H. unfold terminator in H. cbn in H. unfold is_lt.
  destruct (Z.eqb_spec c 10); [exfalso; apply H; auto|]. destruct (Z.eqb_spec c 13); [exfalso; apply H; auto|].
  destruct (Z.eqb_spec c 8232); [exfalso; apply H; auto|]. destruct (Z.eqb_spec c 8233); [exfalso; apply H; auto 6|].
  reflexivity.
Qed.
Lemma terminator_dec : forall c, terminator c \/ ~ terminator c.
Proof. intros c. unfold terminator. destruct (in_dec Z.eq_dec c [10; 13; 8232; 8233]); auto. Qed.
Lemma white_dec : forall c, white c \/ ~ white c.
Proof. intros c. unfold white. match goal with |- In _ ?l \/ _ => destruct (in_dec Z.eq_dec c l) as [H|H] end; [left; exact H|right; exact H]. Qed.
Lemma white_space : forall c, white c \/ terminator c -> is_space c = true /\ c <> 47.
Proof.
  intros c [H|H].
  - assert (A : forallb (fun c => is_space c && negb (c =? 47))
      [9; 11; 12; 65279; 32; 160; 5760; 8192; 8193; 8194; 8195; 8196; 8197; 8198; 8199; 8200; 8201; 8202; 8239; 8287; 12288] = true) by reflexivity.
    rewrite forallb_forall in A. specialize (A c H). apply andb_true_iff in A. destruct A as [A B]. split; [exact A|].
    intros ->. discriminate.
  - assert (A : forallb (fun c => is_space c && negb (c =? 47)) [10; 13; 8232; 8233] = true) by reflexivity.
    rewrite forallb_forall in A. specialize (A c H). apply andb_true_iff in A. destruct A as [A B]. split; [exact A|].
    intros ->. discriminate.
Qed.
Lemma white_not_lt : forall c, white c -> is_lt c = false.
Proof.
  intros c H.
  assert (A : forallb (fun c => negb (is_lt c))
      [9; 11; 12; 65279; 32; 160; 5760; 8192; 8193; 8194; 8195; 8196; 8197; 8198; 8199; 8200; 8201; 8202; 8239; 8287; 12288] = true) by reflexivity.
  rewrite forallb_forall in A. specialize (A c H). destruct (is_lt c); [discriminate|reflexivity].
Qed.
Lemma space_white : forall c, is_space c = true -> white c \/ terminator c \/ c = 133.
Proof.
  intros c H. unfold is_space, icu_space in H.
  rewrite !orb_true_iff, !andb_true_iff, !Z.leb_le, !Z.eqb_eq in H.
  assert (W : forall x, In x [9; 11; 12; 65279; 32; 160; 5760; 8192; 8193; 8194; 8195; 8196; 8197; 8198; 8199; 8200; 8201; 8202; 8239; 8287; 12288] -> c = x -> white c \/ terminator c \/ c = 133)
    by (intros x I ->; left; exact I).
  assert (T : forall x, In x [10; 13; 8232; 8233] -> c = x -> white c \/ terminator c \/ c = 133)
    by (intros x I ->; right; left; exact I).
  assert (R1 : 9 <= c <= 13 -> white c \/ terminator c \/ c = 133).
  { intros R. assert (C : c = 9 \/ c = 10 \/ c = 11 \/ c = 12 \/ c = 13) by lia.
    destruct C as [->|[->|[->|[->| ->]]]].
    - apply (W 9); [cbn; auto|reflexivity].
    - apply (T 10); [cbn; auto|reflexivity].
    - apply (W 11); [cbn; auto|reflexivity].
    - apply (W 12); [cbn; auto|reflexivity].
    - apply (T 13); [cbn; auto|reflexivity]. }
  assert (R2 : 8192 <= c <= 8202 -> white c \/ terminator c \/ c = 133).
  { intros R. left. assert (I : In (c - 8192) (map Z.of_nat (seq 0 11))).
    { apply in_map_iff. exists (Z.to_nat (c - 8192)). split; [lia|]. apply in_seq. lia. }
    cbn in I. unfold white. cbn. lia. }
  destruct H as [H|H]; [|apply (W 65279); [cbn; auto|exact H]].
  repeat match goal with H : _ \/ _ |- _ => destruct H as [H|H] end; auto.
  - apply (W 32); [cbn; auto 10|exact H].
  - apply (W 160); [cbn; auto 10|exact H].
  - apply (W 5760); [cbn; auto 10|exact H].
  - apply (T 8232); [cbn; auto|exact H].
  - apply (T 8233); [cbn; auto|exact H].
  - apply (W 8239); [cbn; auto 30|exact H].
  - apply (W 8287); [cbn; auto 30|exact H].
  - apply (W 12288); [cbn; auto 30|exact H].
Qed.

(** *** the line count *)
Lemma lines_cons : forall c l, lines (c :: l) = z (is_lt c) + lines l.
Proof.
  intros c l. cbn [lines existsb]. unfold is_lt, z. rewrite orb_false_r, !orb_assoc. reflexivity.
Qed.
Lemma lines_app : forall a b, lines (a ++ b) = lines a + lines b.
Proof. induction a as [|c a IH]; intros b; [reflexivity|]. cbn [app]. rewrite !lines_cons, IH. lia. Qed.
Lemma lines_none : forall l, no_terminator l -> lines l = 0.
Proof.
  induction l as [|c l IH]; intros H; [reflexivity|]. rewrite lines_cons, is_lt_false, IH; [reflexivity| |].
  - intros x I. apply H. right; exact I.
  - apply H. left; reflexivity.
Qed.
Lemma no_terminator_cons : forall c l, no_terminator (c :: l) -> ~ terminator c /\ no_terminator l.
Proof. intros c l H. split; [apply H; left; reflexivity|intros x I; apply H; right; exact I]. Qed.
Lemma lines_nonneg : forall l, 0 <= lines l.
Proof. induction l as [|c l IH]; [cbn; lia|]. rewrite lines_cons. unfold z. destruct (is_lt c); lia. Qed.
Lemma lines_pos : forall l, lines l <> 0 <-> exists c, In c l /\ terminator c.
Proof.
  induction l as [|c l IH].
  - cbn. split; [lia|]. intros [c [[] _]].
  - rewrite lines_cons. pose proof (lines_nonneg l). destruct (terminator_dec c) as [T|T].
    + rewrite (is_lt_true c T). cbn [z]. split; [|lia]. intros _. exists c. split; [left; reflexivity|exact T].
    + rewrite (is_lt_false c T). cbn [z]. rewrite Z.add_0_l, IH. split.
      * intros [x [I X]]. exists x. split; [right; exact I|exact X].
      * intros [x [[->|I] X]]; [contradiction|]. exists x. auto.
Qed.

(** *** comments *)
Lemma single_ok : forall b c r fuel ln n, no_terminator b -> terminator c -> (length b < fuel)%nat ->
  single_comment fuel (Inp (b ++ c :: r) ln n) = Some (Inp r (ln + z n) true).
Proof.
  induction b as [|x b IH]; intros c r fuel ln n N T F; (destruct fuel as [|fuel]; [cbn in F; lia|]); cbn [app single_comment]; rewrite get_cons.
  - rewrite (is_lt_true c T). reflexivity.
  - apply no_terminator_cons in N. destruct N as [X N]. rewrite (is_lt_false x X).
    rewrite IH; [|exact N|exact T|cbn in F; lia]. cbn [z]. rewrite Z.add_0_r. reflexivity.
Qed.
Lemma single_end : forall b fuel ln n, no_terminator b -> (length b < fuel)%nat ->
  single_comment fuel (Inp b ln n) = Some (Inp [] (ln + z n) false).
Proof.
  induction b as [|x b IH]; intros fuel ln n N F; (destruct fuel as [|fuel]; [cbn in F; lia|]); cbn [single_comment].
  - rewrite get_nil. reflexivity.
  - rewrite get_cons. apply no_terminator_cons in N. destruct N as [X N]. rewrite (is_lt_false x X).
    rewrite IH; [|exact N|cbn in F; lia]. cbn [z]. rewrite Z.add_0_r. reflexivity.
Qed.
Lemma hashbang_rest_eq : forall fuel i, hashbang_rest fuel i = single_comment fuel i.
Proof.
  induction fuel as [|fuel IH]; intros i; [reflexivity|]. cbn [hashbang_rest single_comment].
  destruct (get i) as [[c|] i']; [|reflexivity]. destruct (is_lt c); [reflexivity|apply IH].
Qed.
Lemma body_tail : forall c b, body (c :: b) -> body b.
Proof. intros c b H x y E. apply (H (c :: x) y). cbn. rewrite E. reflexivity. Qed.
Lemma multi_ok : forall b r fuel ln n, body b -> (S (length b) < fuel)%nat ->
  multi_comment fuel (Inp (b ++ 42 :: 47 :: r) ln n) = Some (false, Inp r (ln + z n + lines b) false).
Proof.
  induction b as [|x b IH]; intros r fuel ln n B F; (destruct fuel as [|fuel]; [cbn in F; lia|]); cbn [app multi_comment]; rewrite get_cons.
  - cbn [Z.eqb Pos.eqb]. rewrite get_cons. cbn. rewrite !Z.add_0_r. reflexivity.
  - pose proof (body_tail x b B) as B'. destruct (Z.eqb_spec x 42) as [->|X].
    + destruct b as [|y b].
      * cbn [app]. rewrite get_cons. change (42 =? 47) with false. cbn [unget rest line].
        change (42 :: 47 :: r) with ([] ++ 42 :: 47 :: r). rewrite IH; [|exact B'|cbn in F |- *; lia].
        rewrite lines_cons. cbn. rewrite !Z.add_0_r. reflexivity.
      * cbn [app]. rewrite get_cons. destruct (Z.eqb_spec y 47) as [->|Y].
        { exfalso. specialize (B [] (b ++ [42; 47]) eq_refl). destruct b; discriminate. }
        cbn [unget rest line]. change (y :: b ++ 42 :: 47 :: r) with ((y :: b) ++ 42 :: 47 :: r).
        rewrite IH; [|exact B'|cbn in F |- *; lia]. rewrite (lines_cons 42). cbn [z is_lt]. cbn. rewrite !Z.add_0_r. reflexivity.
    + rewrite IH; [|exact B'|cbn in F; lia]. rewrite lines_cons. f_equal. f_equal. f_equal. lia.
Qed.
Lemma no_end_tail : forall c b, no_end (c :: b) -> no_end b.
Proof. intros c b H x y E. apply (H (c :: x) y). cbn. rewrite E. reflexivity. Qed.
Lemma multi_open : forall b fuel ln n, no_end b -> (length b < fuel)%nat ->
  multi_comment fuel (Inp b ln n) = Some (true, Inp [] (ln + z n + lines b) false).
Proof.
  induction b as [|x b IH]; intros fuel ln n B F; (destruct fuel as [|fuel]; [cbn in F; lia|]); cbn [multi_comment].
  - rewrite get_nil. cbn [lines]. rewrite Z.add_0_r. reflexivity.
  - rewrite get_cons. pose proof (no_end_tail x b B) as B'. destruct (Z.eqb_spec x 42) as [->|X].
    + destruct b as [|y b].
      * rewrite get_nil. cbn [unget]. rewrite IH; [|exact B'|cbn in F |- *; lia]. rewrite (lines_cons 42). cbn. rewrite !Z.add_0_r. reflexivity.
      * rewrite get_cons. destruct (Z.eqb_spec y 47) as [->|Y].
        { exfalso. exact (B [] b eq_refl). }
        cbn [unget rest line]. rewrite IH; [|exact B'|cbn in F |- *; lia]. rewrite (lines_cons 42). cbn [z is_lt]. cbn. rewrite !Z.add_0_r. reflexivity.
    + rewrite IH; [|exact B'|cbn in F; lia]. rewrite lines_cons. f_equal. f_equal. f_equal. lia.
Qed.

(** *** gaps *)
Lemma skip_gap : forall g, gap g -> forall fuel r ln n e, (S (length (g ++ r)) < fuel)%nat ->
  exists fuel' ln' n', (S (length r) < fuel')%nat /\
    skip fuel (Inp (g ++ r) ln n) e = skip fuel' (Inp r ln' n') e /\ ln' + z n' = ln + z n + lines g.
Proof.
  intros g G. induction G as [|c g W G IH|c g W G IH|b c g N T G IH|b g B G IH]; intros fuel r ln n e F.
  - exists fuel, ln, n. cbn in F |- *. repeat split; lia.
  - destruct fuel as [|fuel]; [lia|]. cbn [app] in F |- *. cbn [skip]. rewrite get_cons.
    destruct (white_space c (or_introl W)) as [S C]. destruct (Z.eqb_spec c 47); [contradiction|]. rewrite S.
    destruct (IH fuel r (ln + z n) (is_lt c) e) as [f [l [m [F' [E L]]]]]; [cbn in F; lia|].
    exists f, l, m. split; [exact F'|]. split; [exact E|]. rewrite L, lines_cons. lia.
  - destruct fuel as [|fuel]; [lia|]. cbn [app] in F |- *. cbn [skip]. rewrite get_cons.
    destruct (white_space c (or_intror W)) as [S C]. destruct (Z.eqb_spec c 47); [contradiction|]. rewrite S.
    destruct (IH fuel r (ln + z n) (is_lt c) e) as [f [l [m [F' [E L]]]]]; [cbn in F; lia|].
    exists f, l, m. split; [exact F'|]. split; [exact E|]. rewrite L, lines_cons. lia.
  - destruct fuel as [|fuel]; [lia|]. cbn [app] in F |- *. rewrite <- app_assoc in F |- *. cbn [app] in F |- *.
    cbn [skip]. rewrite get_cons. change (47 =? 47) with true. cbn iota. rewrite get_cons. change (47 =? 47) with true. cbn iota.
    rewrite single_ok; [|exact N|exact T|cbn in F; rewrite app_length in F; lia].
    destruct (IH fuel r (ln + z n + z (is_lt 47) + z (is_lt 47)) true e) as [f [l [m [F' [E L]]]]].
    { cbn in F. rewrite app_length in F. cbn in F. lia. }
    exists f, l, m. split; [exact F'|]. split; [exact E|]. rewrite L.
    rewrite !lines_cons, lines_app, (lines_none b N), lines_cons, (is_lt_true c T). change (is_lt 47) with false. cbn [z]. lia.
  - destruct fuel as [|fuel]; [lia|]. cbn [app] in F |- *. rewrite <- app_assoc in F |- *. cbn [app] in F |- *.
    cbn [skip]. rewrite get_cons. change (47 =? 47) with true. cbn iota. rewrite get_cons. change (42 =? 47) with false. change (42 =? 42) with true. cbn iota.
    rewrite multi_ok; [|exact B|cbn in F; rewrite app_length in F; cbn in F; lia]. rewrite orb_false_r.
    destruct (IH fuel r (ln + z n + z (is_lt 47) + z (is_lt 42) + lines b) false e) as [f [l [m [F' [E L]]]]].
    { cbn in F. rewrite app_length in F. cbn in F. lia. }
    exists f, l, m. split; [exact F'|]. split; [exact E|]. rewrite L.
    rewrite !lines_cons, lines_app, !lines_cons. change (is_lt 47) with false. change (is_lt 42) with false. cbn [z]. lia.
Qed.
Lemma skip_token : forall fuel c r ln n e, token_start (c :: r) -> c <> 133 -> (0 < fuel)%nat ->
  skip fuel (Inp (c :: r) ln n) e = First c (Inp r (ln + z n) false) e.
Proof.
  intros fuel c r ln n e [W [T C]] N F. destruct fuel as [|fuel]; [lia|]. cbn [skip]. rewrite get_cons.
  destruct (Z.eqb_spec c 47) as [->|X].
  - specialize (C eq_refl). destruct r as [|d r].
    + rewrite get_nil. cbn. rewrite Z.add_0_r. reflexivity.
    + rewrite get_cons. destruct (Z.eqb_spec d 47) as [->|D]; [destruct C|]. destruct (Z.eqb_spec d 42) as [->|D']; [destruct C|].
      cbn. rewrite Z.add_0_r. reflexivity.
  - destruct (is_space c) eqn:S; [destruct (space_white c S) as [H|[H|H]]; contradiction|].
    rewrite (is_lt_false c T). reflexivity.
Qed.
Lemma skip_end : forall fuel t ln n e, text_end t -> (S (length t) < fuel)%nat ->
  skip fuel (Inp t ln n) e = End (Inp [] (ln + z n) false) e.
Proof.
  intros fuel t ln n e [->|[b [N ->]]] F; (destruct fuel as [|fuel]; [lia|]); cbn [skip].
  - rewrite get_nil. reflexivity.
  - rewrite get_cons. change (47 =? 47) with true. cbn iota. rewrite get_cons. change (47 =? 47) with true. cbn iota.
    rewrite single_end; [|exact N|cbn in F; lia].
    destruct fuel as [|fuel]; [cbn in F; lia|]. cbn [skip]. rewrite get_nil. cbn. rewrite !Z.add_0_r. reflexivity.
Qed.
Lemma skip_open : forall fuel t ln n e, open_comment t -> (S (length t) < fuel)%nat ->
  skip fuel (Inp t ln n) e = End (Inp [] (ln + z n + lines t) false) true.
Proof.
  intros fuel t ln n e [b [N ->]] F. destruct fuel as [|fuel]; [lia|]. cbn [skip].
  rewrite get_cons. change (47 =? 47) with true. cbn iota. rewrite get_cons. change (42 =? 47) with false. change (42 =? 42) with true. cbn iota.
  rewrite multi_open; [|exact N|cbn in F; lia]. rewrite orb_true_r.
  destruct fuel as [|fuel]; [cbn in F; lia|]. cbn [skip]. rewrite get_nil, !lines_cons. cbn. rewrite !Z.add_0_r. reflexivity.
Qed.

(** the three cases cover all texts *)
Lemma split_line : forall l, no_terminator l \/ exists b c g, l = b ++ c :: g /\ no_terminator b /\ terminator c.
Proof.
  induction l as [|x l IH]; [left; intros c []|]. destruct (terminator_dec x) as [T|T].
  - right. exists [], x, l. repeat split; [intros c []|exact T].
  - destruct IH as [N|[b [c [g [-> [N C]]]]]].
    + left. intros c [<-|I]; [exact T|exact (N c I)].
    + right. exists (x :: b), c, g. repeat split; [|exact C]. intros y [<-|I]; [exact T|exact (N y I)].
Qed.
Lemma body_nil : body [].
Proof.
  intros a b E. destruct a as [|x a]; cbn in E; [inversion E; reflexivity|].
  inversion E as [[E1 E2]]. destruct a as [|y a]; cbn in E2; [discriminate|]. inversion E2 as [[E3 E4]]. destruct a; discriminate.
Qed.
Lemma split_comment : forall l, no_end l \/ exists b g, l = b ++ 42 :: 47 :: g /\ body b.
Proof.
  induction l as [|c l IH]; [left; intros [|x a] b; discriminate|].
  assert (D : (c = 42 /\ exists g, l = 47 :: g) \/ ~ (c = 42 /\ exists g, l = 47 :: g)).
  { destruct (Z.eq_dec c 42) as [->|C]; [|right; intros [X _]; contradiction].
    destruct l as [|d l]; [right; intros [_ [g X]]; discriminate|].
    destruct (Z.eq_dec d 47) as [->|D]; [left; split; [reflexivity|exists l; reflexivity]|].
    right. intros [_ [g X]]. inversion X. contradiction. }
  destruct D as [[-> [g ->]]|D]; [right; exists [], g; split; [reflexivity|apply body_nil]|].
  destruct IH as [N|[b [g [-> B]]]].
  - left. intros [|x a] b E; cbn in E; inversion E; subst; [apply D; split; [reflexivity|exists b; reflexivity]|].
    exact (N a b eq_refl).
  - right. exists (c :: b), g. split; [reflexivity|]. intros [|x a] y E; cbn in E; inversion E; subst.
    + exfalso. apply D. split; [reflexivity|]. destruct b as [|d b]; cbn in *; [discriminate|].
      match goal with H : d :: _ = 47 :: _ |- _ => inversion H; subst end. eexists; reflexivity.
    + match goal with H : b ++ _ = _ |- _ => exact (B _ _ H) end.
Qed.
Lemma gap_app_one : forall c g, white c \/ terminator c -> gap g -> gap (c :: g).
Proof. intros c g [W|T] G; [apply gap_white|apply gap_line]; assumption. Qed.
Lemma every_text : forall t, exists g r, t = g ++ r /\ gap g /\ (token_start r \/ text_end r \/ open_comment r).
Proof.
  intros t. remember (length t) as k eqn:K. assert (L : (length t <= k)%nat) by lia. clear K. revert t L.
  induction k as [|k IH]; intros t L.
  - destruct t; [|cbn in L; lia]. exists [], []. repeat split; [apply gap_nil|right; left; left; reflexivity].
  - destruct t as [|c t]; [exists [], []; repeat split; [apply gap_nil|right; left; left; reflexivity]|].
    assert (D : (white c \/ terminator c) \/ (~ white c /\ ~ terminator c))
      by (destruct (white_dec c), (terminator_dec c); tauto).
    destruct D as [D|[W T]].
    { destruct (IH t) as [g [r [-> [G R]]]]; [cbn in L; lia|].
      exists (c :: g), r. split; [reflexivity|]. split; [apply gap_app_one; assumption|exact R]. }
    assert (E : (c = 47 /\ exists u, t = 47 :: u) \/ (c = 47 /\ exists u, t = 42 :: u)
                \/ (c = 47 -> match t with 47 :: _ | 42 :: _ => False | _ => True end)).
    { destruct (Z.eq_dec c 47) as [->|C]; [|right; right; intros X; contradiction].
      destruct t as [|d t]; [right; right; intros _; exact I|].
      destruct (Z.eq_dec d 47) as [->|D1]; [left; split; [reflexivity|exists t; reflexivity]|].
      destruct (Z.eq_dec d 42) as [->|D2]; [right; left; split; [reflexivity|exists t; reflexivity]|].
      right; right. intros _. destruct d as [|p|p]; auto.
      destruct p as [p|p|]; auto; destruct p as [p|p|]; auto; destruct p as [p|p|]; auto;
        destruct p as [p|p|]; auto; destruct p as [p|p|]; auto; destruct p as [p|p|]; auto;
        try (apply D1; reflexivity); try (apply D2; reflexivity). }
    destruct E as [[-> [u ->]]|[[-> [u ->]]|C]].
    + destruct (split_line u) as [N|[b [x [g0 [-> [N X]]]]]].
      { exists [], (47 :: 47 :: u). repeat split; [apply gap_nil|]. right. left. right. exists u. auto. }
      destruct (IH g0) as [g [r [-> [G R]]]].
      { cbn in L. rewrite app_length in L. cbn in L. lia. }
      exists (47 :: 47 :: b ++ x :: g), r. split; [cbn; rewrite <- app_assoc; reflexivity|].
      split; [apply gap_single; assumption|exact R].
    + destruct (split_comment u) as [N|[b [g0 [-> B]]]].
      { exists [], (47 :: 42 :: u). repeat split; [apply gap_nil|]. right. right. exists u. auto. }
      destruct (IH g0) as [g [r [-> [G R]]]].
      { cbn in L. rewrite app_length in L. cbn in L. lia. }
      exists (47 :: 42 :: b ++ 42 :: 47 :: g), r. split; [cbn; rewrite <- app_assoc; reflexivity|].
      split; [apply gap_multi; assumption|exact R].
    + exists [], (c :: t). repeat split; [apply gap_nil|]. left. split; [exact W|]. split; [exact T|exact C].
Qed.

(** *** tokens *)
Lemma fuel_enough : forall t, (S (length t) < fuel_for t)%nat.
Proof. intros t. unfold fuel_for. lia. Qed.
Lemma next_first : forall g c r ln, gap g -> token_start (c :: r) -> c <> 133 ->
  next_token (g ++ c :: r) ln = First c (Inp r (ln + lines g) false) false.
Proof.
  intros g c r ln G T N. unfold next_token.
  destruct (skip_gap g G _ (c :: r) ln false false (fuel_enough _)) as [f [l [m [F [E L]]]]].
  rewrite E, skip_token; [|exact T|exact N|lia]. cbn [z] in L. rewrite L, Z.add_0_r. reflexivity.
Qed.
Lemma next_end : forall g t ln, gap g -> text_end t ->
  next_token (g ++ t) ln = End (Inp [] (ln + lines g) false) false.
Proof.
  intros g t ln G T. unfold next_token.
  destruct (skip_gap g G _ t ln false false (fuel_enough _)) as [f [l [m [F [E L]]]]].
  rewrite E, skip_end; [|exact T|exact F]. cbn [z] in L. rewrite L, Z.add_0_r. reflexivity.
Qed.
Lemma next_open : forall g t ln, gap g -> open_comment t ->
  next_token (g ++ t) ln = End (Inp [] (ln + lines (g ++ t)) false) true.
Proof.
  intros g t ln G T. unfold next_token.
  destruct (skip_gap g G _ t ln false false (fuel_enough _)) as [f [l [m [F [E L]]]]].
  rewrite E, skip_open; [|exact T|exact F]. cbn [z] in L. rewrite L, lines_app. f_equal. f_equal. lia.
Qed.
(** the same after a first line that starts with #! *)
Lemma first_hashbang : forall h c g r, hashbang_line h -> terminator c -> gap g ->
  (forall x u, r = x :: u -> token_start r -> x <> 133 ->
     first_token (h ++ c :: g ++ r) = First x (Inp u (2 + lines g) false) false) /\
  (text_end r -> first_token (h ++ c :: g ++ r) = End (Inp [] (2 + lines g) false) false).
Proof.
  intros h c g r [b [N ->]] T G.
  assert (H : exists f ln n, (S (length r) < f)%nat /\ ln + z n = 2 + lines g /\
    first_token ((35 :: 33 :: b) ++ c :: g ++ r) = skip f (Inp r ln n) false).
  { unfold first_token, hashbang. cbn [app]. rewrite get_cons. change (35 =? 35) with true. cbn iota. rewrite get_cons.
    change (33 =? 33) with true. cbn iota. rewrite hashbang_rest_eq, single_ok;
      [|exact N|exact T|unfold fuel_for; cbn; rewrite app_length; lia].
    destruct (skip_gap g G (fuel_for (35 :: 33 :: b ++ c :: g ++ r)) r
      (1 + z false + z (is_lt 35) + z (is_lt 33)) true false) as [f [l [m [F [E L]]]]].
    { unfold fuel_for. cbn [length]. rewrite !app_length. cbn [length]. rewrite app_length. lia. }
    exists f, l, m. split; [exact F|]. split; [rewrite L; reflexivity|exact E]. }
  destruct H as [f [ln [n [F [L E]]]]]. rewrite E. split.
  - intros x u -> S X. rewrite skip_token; [|exact S|exact X|lia]. rewrite L. reflexivity.
  - intros S. rewrite skip_end; [|exact S|exact F]. rewrite L. reflexivity.
Qed.
Lemma first_other : forall t, (forall u, t <> 35 :: 33 :: u) -> first_token t = next_token t 1.
Proof.
  intros t H. unfold first_token, next_token, hashbang. destruct t as [|c t]; [reflexivity|]. rewrite get_cons.
  destruct (Z.eqb_spec c 35) as [->|C]; [|reflexivity]. destruct t as [|d t]; [reflexivity|]. rewrite get_cons.
  destruct (Z.eqb_spec d 33) as [->|D]; [destruct (H t eq_refl)|]. reflexivity.
Qed.
