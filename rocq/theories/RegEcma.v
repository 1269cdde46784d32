(** The character tests of rjs_regexp.c and the character sets of the standard. *)
From Coq Require Import ZArith List Bool Arith Lia.
Import ListNotations.
From Verif Require Import RegModel RegSpec RegCharSpec RegBase RegProofs RegTerm RegText RegLang.
From Verif Require StrModel StrSpec StrProofs.
Local Open Scope Z_scope.

Lemma b_iff : forall (b : bool) (P : Prop), (b = true <-> P) -> (negb b = true <-> ~ P).
Proof. intros [|] P [A B]; cbn; split; intros; auto; try discriminate; intros Q; auto. discriminate (B Q). Qed.
Lemma digit_spec : forall c, StrModel.is_digit c = true <-> es_digit c.
Proof. intros. unfold StrModel.is_digit, es_digit. rewrite andb_true_iff, !Z.leb_le. tauto. Qed.
Lemma word_spec : forall c, is_word c = true <-> es_basic_word c.
Proof.
  intros. unfold is_word, is_alnum, es_basic_word. rewrite !orb_true_iff, digit_spec, !andb_true_iff, !Z.leb_le, Z.eqb_eq. tauto.
Qed.
Lemma terminator_spec : forall c, is_line_terminator c = true <-> es_line_terminator c.
Proof.
  intros. unfold is_line_terminator, es_line_terminator. rewrite !orb_true_iff, !Z.eqb_eq. cbn [In].
  intuition congruence.
Qed.

(** ** without the flag i *)
Section plain.
  Variable E : env.
  Hypothesis Hi : fl_i E = false.
  Lemma canon_id : forall c, canonicalize E c = c.
  Proof. intros. unfold canonicalize. rewrite Hi. reflexivity. Qed.
  Lemma es_canon_id : forall c, es_canon E c = c.
  Proof. intros. unfold es_canon. rewrite Hi. reflexivity. Qed.
  Lemma es_word_plain : forall c, es_word E c <-> es_basic_word c.
  Proof. intros. unfold es_word. rewrite Hi. intuition congruence. Qed.
  Lemma hits_plain : forall (A : Z -> Prop) c, es_char E c -> (es_hits E A c <-> A c).
  Proof.
    intros A c C. unfold es_hits. split.
    - intros (d & _ & H & Q). rewrite !es_canon_id in Q. subst. auto.
    - intros H. exists c. auto.
  Qed.
  Lemma set_plain : forall k c, c <> 0x85 -> (match_char E k c = true <-> es_set E k c).
  Proof.
    intros k c N.
    assert (Sp : StrModel.is_white_space c = true <-> StrSpec.es_space c).
    { rewrite StrProofs.white_space_spec. intuition. }
    assert (Wd : is_word c = true <-> es_word E c) by (rewrite es_word_plain; apply word_spec).
    destruct k; cbn [match_char es_set]; rewrite ?canon_id.
    - apply Z.eqb_eq.
    - exact Sp.
    - apply digit_spec.
    - exact Wd.
    - apply b_iff. exact Sp.
    - apply b_iff. apply digit_spec.
    - apply b_iff. exact Wd.
    - tauto.
    - rewrite negb_true_iff. tauto.
  Qed.
  Lemma item_plain : forall a c, c <> 0x85 -> (match_class_atom E a c = true <-> es_item E a c).
  Proof.
    intros [k|lo hi] c N; cbn [match_class_atom es_item].
    - apply set_plain. auto.
    - rewrite !canon_id, andb_true_iff, !Z.leb_le. tauto.
  Qed.
  Lemma class_plain : forall items c, c <> 0x85 ->
    (existsb (fun a => match_class_atom E a c) items = true <-> exists it, In it items /\ es_item E it c).
  Proof.
    intros. rewrite existsb_exists. split; intros (x & A & B); exists x; split; auto; apply item_plain; auto.
  Qed.
  Lemma member_plain : forall a c, es_char E c -> c <> 0x85 -> (code_member E a c = true <-> es_member E a c).
  Proof.
    intros a c C N. destruct a; cbn [code_member es_member]; try (split; [discriminate|tauto]).
    - rewrite hits_plain by auto. apply set_plain. auto.
    - rewrite hits_plain, orb_true_iff by auto.
      pose proof (b_iff _ _ (terminator_spec c)). tauto.
    - unfold match_class. destruct neg; rewrite hits_plain by auto.
      + apply b_iff. apply class_plain. auto.
      + apply class_plain. auto.
  Qed.
End plain.

(** ** with the flag i *)
Section ignore.
  Variable E : env.
  (** the test of the upper case into ASCII makes the difference *)
  Lemma canon_iff : forall c, canonicalize E c = es_canon E c <->
    (fl_i E = true /\ fl_u E = false /\ (exists u, to_upper E c = [u] /\ 128 <= c /\ u < 128) -> False).
  Proof.
    intros c. unfold canonicalize, es_canon. destruct (fl_i E), (fl_u E); cbn [andb]; try (split; auto; intros; intuition congruence).
    destruct (to_upper E c) as [|u [|? ?]].
    - split; auto. intros _ (_ & _ & u & Q & _). discriminate.
    - destruct (Z.leb_spec 128 c); destruct (Z.ltb_spec u 128); cbn [andb].
      + split.
        * intros Q. lia.
        * intros K. exfalso. apply K. repeat split; auto. exists u. auto.
      + split; auto. intros _ (_ & _ & u' & Q & A & B). injection Q as <-. lia.
      + split; auto. intros _ (_ & _ & u' & Q & A & B). injection Q as <-. lia.
      + split; auto. intros _ (_ & _ & u' & Q & A & B). injection Q as <-. lia.
    - split; auto. intros _ (_ & _ & u' & Q & _). discriminate.
  Qed.
  (** a character of the pattern *)
  Lemma char_iff : forall c d, es_char E d -> canonicalize E c = es_canon E c -> canonicalize E d = es_canon E d ->
    (match_char E (CNormal d) c = true <-> es_hits E (es_set E (CNormal d)) c).
  Proof.
    intros c d D Qc Qd. cbn [match_char es_set]. rewrite Z.eqb_eq, Qc, Qd. unfold es_hits. split.
    - intros Q. exists d. split; [exact D|split; congruence].
    - intros (d' & _ & -> & Q). congruence.
  Qed.
  (** a set which is a union of classes of characters with the same canonical form *)
  Definition closed (A : Z -> Prop) : Prop :=
    forall c d, es_char E c -> es_char E d -> es_canon E c = es_canon E d -> (A c <-> A d).
  Lemma closed_hits : forall A c, closed A -> es_char E c -> (es_hits E A c <-> A c).
  Proof.
    intros A c H C. split.
    - intros (d & D & Ad & Q). apply (H d c); auto.
    - intros Ac. exists c. auto.
  Qed.
  (** a range whose canonical forms are the range between those of its ends *)
  Definition even_range (lo hi : Z) : Prop :=
    (forall d, lo <= d <= hi -> es_char E d /\ es_canon E lo <= es_canon E d <= es_canon E hi) /\
    (forall x, es_canon E lo <= x <= es_canon E hi -> exists d, lo <= d <= hi /\ es_canon E d = x).
  Lemma range_iff : forall lo hi c, even_range lo hi -> canonicalize E c = es_canon E c ->
    canonicalize E lo = es_canon E lo -> canonicalize E hi = es_canon E hi ->
    (match_class_atom E (CRange lo hi) c = true <-> es_hits E (es_item E (CRange lo hi)) c).
  Proof.
    intros lo hi c [H1 H2] Qc Ql Qh. cbn [match_class_atom es_item].
    rewrite andb_true_iff, !Z.leb_le, Qc, Ql, Qh. unfold es_hits. split.
    - intros B. destruct (H2 _ B) as (d & D & Q). exists d. destruct (H1 d D). auto.
    - intros (d & _ & D & Q). rewrite <- Q. apply H1. auto.
  Qed.
  (** items for which the test of the code is right *)
  Definition fair (c : Z) (it : citem) : Prop :=
    match it with
    | CItem (CNormal d) => es_char E d /\ canonicalize E d = es_canon E d
    | CItem Cd => closed es_digit
    | CItem CnotD => closed es_digit
    | CItem Cs => closed StrSpec.es_space /\ c <> 0x85
    | CItem CnotS => closed StrSpec.es_space /\ c <> 0x85
    | CItem Cw => closed (es_word E) /\ (es_word E c -> es_basic_word c)
    | CItem CnotW => closed (es_word E) /\ (es_word E c -> es_basic_word c)
    | CItem (Cp p v) => closed (fun d => prop_match E p v d = true) /\ prop_match E p v (canonicalize E c) = prop_match E p v c
    | CItem (CnotP p v) => closed (fun d => prop_match E p v d = true) /\ prop_match E p v (canonicalize E c) = prop_match E p v c
    | CRange lo hi => even_range lo hi /\ canonicalize E lo = es_canon E lo /\ canonicalize E hi = es_canon E hi
    end.
  Lemma closed_not : forall A, closed A -> closed (fun d => ~ A d).
  Proof. intros A H c d C D Q. specialize (H c d C D Q). tauto. Qed.
  Lemma closed_ext : forall A B, (forall c, A c <-> B c) -> closed A -> closed B.
  Proof. intros A B Q H c d C D R. rewrite <- !Q. auto. Qed.
  Lemma hits_ext : forall A B c, (forall d, A d <-> B d) -> (es_hits E A c <-> es_hits E B c).
  Proof. intros A B c Q. unfold es_hits. split; intros (d & C & H & R); exists d; split; auto; split; auto; apply Q; auto. Qed.
  Lemma fair_item : forall it c, es_char E c -> canonicalize E c = es_canon E c -> fair c it ->
    (match_class_atom E it c = true <-> es_hits E (es_item E it) c).
  Proof.
    intros [k|lo hi] c C Qc F.
    2:{ destruct F as (A & B & D). apply range_iff; auto. }
    destruct k; cbn [fair] in F; cbn [match_class_atom].
    - destruct F. apply char_iff; auto.
    - destruct F as [F N]. rewrite closed_hits by auto. cbn [match_char es_item es_set]. rewrite StrProofs.white_space_spec. intuition.
    - rewrite closed_hits by auto. apply digit_spec.
    - destruct F as [F N]. rewrite closed_hits by auto. cbn [match_char es_item es_set]. rewrite word_spec.
      split; auto. intros. left. auto.
    - destruct F as [F N]. rewrite closed_hits by (auto; apply closed_not; auto). cbn [match_char es_item es_set].
      apply b_iff. rewrite StrProofs.white_space_spec. intuition.
    - rewrite closed_hits by (auto; apply closed_not; auto). cbn [match_char es_item es_set]. apply b_iff. apply digit_spec.
    - destruct F as [F N]. rewrite closed_hits by (auto; apply closed_not; auto). cbn [match_char es_item es_set].
      apply b_iff. rewrite word_spec. split; auto. intros. left. auto.
    - destruct F as [F N]. rewrite closed_hits by auto. cbn [match_char es_item es_set]. rewrite N. tauto.
    - destruct F as [F N]. rewrite closed_hits; auto.
      + cbn [match_char es_item es_set]. rewrite N, negb_true_iff. tauto.
      + eapply closed_ext; [|apply closed_not; exact F]. intros d. cbn. destruct (prop_match E prop value d); intuition congruence.
  Qed.
  Lemma fair_class : forall neg items c, es_char E c -> canonicalize E c = es_canon E c -> Forall (fair c) items ->
    (code_member E (AClass neg items) c = true <-> es_member E (AClass neg items) c).
  Proof.
    intros neg items c C Qc F. cbn [code_member es_member]. unfold match_class.
    assert (H : existsb (fun a => match_class_atom E a c) items = true <->
      es_hits E (fun d => exists it, In it items /\ es_item E it d) c).
    { rewrite existsb_exists. rewrite Forall_forall in F. split.
      - intros (it & I & H). apply fair_item in H; auto. destruct H as (d & D & A & Q). exists d. eauto.
      - intros (d & D & (it & I & A) & Q). exists it. split; auto. apply fair_item; auto. exists d. auto. }
    destruct neg; auto. apply b_iff. auto.
  Qed.
  Lemma fair_char : forall k c, es_char E c -> canonicalize E c = es_canon E c -> fair c (CItem k) ->
    (code_member E (AChar k) c = true <-> es_member E (AChar k) c).
  Proof. intros k c C Qc F. cbn [code_member es_member]. apply (fair_item (CItem k)); auto. Qed.
  Lemma fair_all : forall c, es_char E c -> closed es_line_terminator ->
    (code_member E AAll c = true <-> es_member E AAll c).
  Proof.
    intros c C F. cbn [code_member es_member]. rewrite closed_hits; auto.
    - rewrite orb_true_iff. pose proof (b_iff _ _ (terminator_spec c)). tauto.
    - intros a b A B Q. specialize (F a b A B Q). tauto.
  Qed.
End ignore.

(** ** the text *)
Lemma points_range : forall s, Forall code_unit s -> Forall (fun c => 0 <= c <= 0x10ffff) (code_points s).
Proof.
  apply (points_ind (fun _ l => Forall (fun c => 0 <= c <= 0x10ffff) l)).
  - constructor.
  - intros a s [A B] _ _ H. constructor; auto. lia.
  - intros a b q A B _ H. constructor; auto. unfold lead, trail, pairv in *.
    apply andb_prop in A. apply andb_prop in B. rewrite !Z.leb_le in A, B. lia.
Qed.
Lemma text_chars : forall E, Forall code_unit (str E) -> forall c, In c (input (code_world E)) -> es_char E c.
Proof.
  intros E U c H. cbn [code_world input] in H. unfold es_char. destruct (fl_u E).
  - pose proof (points_range _ U) as P. rewrite Forall_forall in P. auto.
  - rewrite Forall_forall in U. apply U. auto.
Qed.

(** ** two worlds with the same members on the text *)
Section satsame.
  Variables W V : world.
  Hypothesis Hin : input V = input W.
  Hypothesis Hmem : forall a c, In c (input W) -> member W a c = member V a c.
  Hypothesis Hword : forall c, In c (input W) -> wordchar W c = wordchar V c.
  Hypothesis Hmul : multiline V = multiline W.
  Local Open Scope nat_scope.
  Notation n := (inlen W).
  Lemma tests_eq : forall i, i <= n -> at_start V i = at_start W i /\ at_end V i = at_end W i /\
    word_before V i = word_before W i /\ word_at V i = word_at W i.
  Proof.
    intros i H.
    pose proof (len_eq W V Hin) as L. pose proof (char_eq W V Hin) as C.
    repeat split.
    - unfold at_start. destruct i; auto. rewrite Hmul, C. reflexivity.
    - unfold at_end. rewrite L, Hmul, C. reflexivity.
    - unfold word_before. destruct i; auto. rewrite C. symmetry. apply Hword. apply char_in. lia.
    - unfold word_at. rewrite L, C. destruct (Nat.ltb_spec i n); auto. cbn [andb].
      symmetry. apply Hword. apply char_in. auto.
  Qed.
  Definition in_n (R : nat -> nat -> Prop) : Prop := forall i j, i <= n -> R i j -> j <= n.
  Definition same_rel (R S : nat -> nat -> Prop) : Prop := in_n R /\ forall i j, i <= n -> (R i j <-> S i j).
  Lemma rel_times : forall R S k, same_rel R S -> same_rel (times k R) (times k S).
  Proof.
    intros R S k [A B]. induction k as [|k [IA IB]].
    - split; [intros i j H Q; simpl in Q; lia|]. intros. simpl. tauto.
    - split.
      + intros i j H (h & R1 & R2). eapply IA; [|exact R2]. eapply A; eauto.
      + intros i j H. split; intros (h & R1 & R2); exists h.
        * split; [apply B; auto|]. apply IB; auto. eapply A; eauto.
        * apply B in R1; auto. split; auto. apply IB; auto. eapply A; eauto.
  Qed.
  Lemma rel_row : forall fwd Rs Ss, Forall2 same_rel Rs Ss -> same_rel (sat_row fwd Rs) (sat_row fwd Ss).
  Proof.
    intros fwd Rs Ss F. induction F as [|R S Rs Ss [A B] F [IA IB]].
    - split; [intros i j H Q; simpl in Q; lia|]. intros. simpl. tauto.
    - cbn [sat_row]. destruct fwd; split.
      + intros i j H (h & R1 & R2). eapply IA; [|exact R2]. eapply A; eauto.
      + intros i j H. split; intros (h & R1 & R2); exists h.
        * split; [apply B; auto|]. apply IB; auto. eapply A; eauto.
        * apply B in R1; auto. split; auto. apply IB; auto. eapply A; eauto.
      + intros i j H (h & R1 & R2). eapply A; [|exact R2]. eapply IA; eauto.
      + intros i j H. split; intros (h & R1 & R2); exists h.
        * split; [apply IB; auto|]. apply B; auto. eapply IA; eauto.
        * apply IB in R1; auto. split; auto. apply B; auto. eapply IA; eauto.
  Qed.
  Lemma rel_turn : forall Rs Ss, Forall2 same_rel Rs Ss -> same_rel (sat_turn Rs) (sat_turn Ss).
  Proof.
    intros Rs Ss F. induction F as [|R S Rs Ss H F IH].
    - split; [intros i j H Q; simpl in Q; lia|]. intros. simpl. tauto.
    - destruct F as [|R' S' Rs Ss H' F]; [exact H|].
      destruct H as [A B]. destruct IH as [IA IB]. split.
      + intros i j L [Q|Q]; [eapply A; eauto|eapply IA; eauto].
      + intros i j L. specialize (B i j L). specialize (IB i j L).
        change (sat_turn (R :: R' :: Rs) i j) with (R i j \/ sat_turn (R' :: Rs) i j).
        change (sat_turn (S :: S' :: Ss) i j) with (S i j \/ sat_turn (S' :: Ss) i j). tauto.
  Qed.
  Definition RA (a : atom) : Prop := forall fwd, same_rel (sat_atom W a fwd) (sat_atom V a fwd).
  Definition RT (t : term) : Prop := forall fwd, same_rel (sat_term W t fwd) (sat_term V t fwd).
  Lemma rel_pat : forall p fwd, Forall (Forall RT) p -> same_rel (sat_pat W p fwd) (sat_pat V p fwd).
  Proof.
    intros p fwd F. apply rel_turn. induction F as [|l p H F IH]; cbn [map]; constructor; auto.
    apply rel_row. induction H as [|t l H G IH']; cbn [map]; constructor; auto.
  Qed.
  Lemma all_rel : (forall a, RA a) /\ (forall t, RT t) /\ (forall p, Forall (Forall RT) p).
  Proof.
    pose proof (len_eq W V Hin) as L. pose proof (char_eq W V Hin) as C.
    assert (Hset : forall a, match a with AChar _ | AAll | AClass _ _ => True | _ => False end -> RA a).
    { intros a H fwd.
      assert (Q : same_rel
        (fun i j => if fwd then i < inlen W /\ j = i + 1 /\ member W a (char_at W i) = true
                    else i = j + 1 /\ member W a (char_at W j) = true)
        (fun i j => if fwd then i < inlen V /\ j = i + 1 /\ member V a (char_at V i) = true
                    else i = j + 1 /\ member V a (char_at V j) = true)).
      { split.
        - intros i j A B. destruct fwd; lia.
        - intros i j A. rewrite L, !C. destruct fwd.
          + split; intros (B & D & M); (split; [|split]); auto; [rewrite <- Hmem|rewrite Hmem]; auto; apply char_in; auto.
          + split; intros (B & M); split; auto; [rewrite <- Hmem|rewrite Hmem]; auto; apply char_in; lia. }
      destruct a; try tauto; exact Q. }
    assert (Hchk : forall a, match a with ALineStart | ALineEnd | AWordB | ANotWordB | ABack _ | AName _ => True | _ => False end -> RA a).
    { intros a H fwd. split.
      - intros i j A B. destruct a; try tauto; cbn in B; try tauto; lia.
      - intros i j A. destruct (tests_eq i A) as (Q1 & Q2 & Q3 & Q4).
        destruct a; try tauto; cbn; rewrite ?Q1, ?Q2, ?Q3, ?Q4; tauto. }
    assert (Hpat : forall p, Forall (Forall RT) p -> RA (APat p)).
    { intros p F fwd. exact (rel_pat p fwd F). }
    assert (Hgroup : forall i p, Forall (Forall RT) p -> RA (AGroup i p)).
    { intros i p F fwd. exact (rel_pat p fwd F). }
    assert (Hlook : forall ah ng p, Forall (Forall RT) p -> RA (ALook ah ng p)).
    { intros ah ng p F fwd. destruct (rel_pat p ah F) as [A B]. split.
      - intros i j H [Q _]. lia.
      - intros i j H.
        change (j = i /\ (if ng then ~ (exists h, sat_pat W p ah i h) else exists h, sat_pat W p ah i h) <->
                j = i /\ (if ng then ~ (exists h, sat_pat V p ah i h) else exists h, sat_pat V p ah i h)).
        assert (Q : (exists h, sat_pat W p ah i h) <-> exists h, sat_pat V p ah i h).
        { split; intros (h & K); exists h; apply B; auto. }
        destruct ng; tauto. }
    assert (Hterm : forall a mn mx gs ge g, RA a -> RT (Term a mn mx gs ge g)).
    { intros a mn mx gs ge g H fwd. split.
      - intros i j A (k & _ & _ & T). exact (proj1 (rel_times _ _ k (H fwd)) i j A T).
      - intros i j A. split; intros (k & K1 & K2 & T); exists k; split; auto; split; auto;
          apply (proj2 (rel_times _ _ k (H fwd)) i j A); auto. }
    split; [|split]; [apply atom_tree with (Q := RT)|apply term_tree with (P := RA)|apply pat_tree with (P := RA)];
      intros; auto; try (apply Hset; exact I); try (apply Hchk; exact I).
  Qed.
  Lemma sat_same : forall p i j, i <= n -> (sat_pat W p true i j <-> sat_pat V p true i j).
  Proof. intros p i j H. apply (rel_pat p true (proj2 (proj2 all_rel) p)). auto. Qed.
End satsame.

(** ** the world of the standard without the flag i *)
Section standard.
  Variables (E : env) (V : world).
  Hypothesis Hu : Forall code_unit (str E).
  Hypothesis HV : es_world E V.
  Hypothesis Hi : fl_i E = false.
  Hypothesis Hn : ~ In 0x85 (str E).
  Notation W := (code_world E).
  Lemma no_nel : ~ In 0x85 (input W).
  Proof.
    cbn [code_world input]. destruct (fl_u E); auto. revert Hn. pattern (str E), (code_points (str E)).
    apply points_ind; auto.
    - intros a s A F N IH H [Q|Q]; [apply H; left; auto|]. apply IH; auto. intros K. apply H. right. auto.
    - intros a b q A B F IH H [Q|Q].
      + pose proof (width_pair a b A B) as K. rewrite Q in K. discriminate.
      + apply IH; auto. intros K. apply H. right. right. auto.
  Qed.
  Lemma std_input : input V = input W.
  Proof. destruct HV as (A & _). exact A. Qed.
  Lemma std_member : forall a c, In c (input W) -> member W a c = member V a c.
  Proof.
    intros a c H. destruct HV as (_ & M & _).
    pose proof (text_chars E Hu c H) as C. pose proof no_nel as N.
    assert (Q : c <> 0x85%Z) by (intros ->; auto).
    pose proof (member_plain E Hi a c C Q) as A. specialize (M a c C). cbn [code_world member].
    destruct (code_member E a c), (member V a c); auto; [symmetry; apply M, A; auto|apply A, M; auto].
  Qed.
  Lemma std_canon : forall c, canon W c = canon V c.
  Proof.
    intros c. destruct HV as (_ & _ & K & _). rewrite K, es_canon_id by auto. apply canon_id. auto.
  Qed.
  Lemma std_word : forall c, wordchar W c = wordchar V c.
  Proof.
    intros c. destruct HV as (_ & _ & _ & K & _). specialize (K c). rewrite es_word_plain in K by auto.
    pose proof (word_spec c) as A. cbn [code_world wordchar].
    destruct (is_word c), (wordchar V c); auto; [symmetry; apply K, A; auto|apply A, K; auto].
  Qed.
  Local Open Scope nat_scope.
  Lemma std_match : forall p i, well_numbered p (group_num E) -> forallb (forallb steady_t) p = true -> i <= text_len E ->
    m_match W true p i = m_match V false p i.
  Proof.
    intros p i Wn S H. destruct HV as (_ & _ & _ & _ & A & B & C).
    apply match_same with (g := group_num E); auto using std_input, std_member, std_canon, std_word.
  Qed.
  Lemma std_found : forall p i, well_numbered p (group_num E) -> forallb (forallb no_back_t) p = true -> i <= text_len E ->
    ((exists y, m_match W true p i = Found y) <-> (exists y, m_match V false p i = Found y)).
  Proof.
    intros p i Wn S H. destruct HV as (_ & _ & _ & _ & A & B & C).
    rewrite (proj1 (match_means W true p i _ Wn S H)).
    assert (H' : i <= inlen V) by (rewrite (len_eq W V std_input); exact H).
    rewrite (proj1 (match_means V false p i _ Wn S H')).
    pose proof (sat_same W V std_input std_member (fun c _ => std_word c) A p i) as Q.
    split; intros (j & K); exists j; apply (Q j); auto.
  Qed.
  (** an ECMAScript match always has an answer *)
  Lemma std_not_out : forall p i, i <= text_len E -> m_match V false p i <> Out.
  Proof.
    intros p i H. apply match_not_out. rewrite (len_eq W V std_input). exact H.
  Qed.
End standard.
