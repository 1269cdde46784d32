(** The text the matcher of rjs_regexp.c walks over is the string, or its code
    points with the flag u. *)
From Coq Require Import ZArith List Bool Arith Lia.
Import ListNotations.
From Verif Require Import RegModel RegSpec RegBase RegProofs RegTerm.
From Verif Require StrProofs.
Local Open Scope nat_scope.

(** the matchers with the character tests of the code *)
Definition code_world (E : env) : world := {|
  input := if fl_u E then code_points (str E) else str E;
  member := code_member E;
  canon := canonicalize E;
  wordchar := is_word;
  multiline := fl_m E;
  ngroups := group_num E;
  names := group_names E |}.
(** the position in the string of a character *)
Definition place (E : env) (i : nat) : nat :=
  if fl_u E then unit_index (code_points (str E)) i else i.
Definition text_len (E : env) : nat := length (if fl_u E then code_points (str E) else str E).

(** what is at each character of the string *)
Definition pairv (a b : Z) : Z := (0x10000 + (a - 0xd800) * 1024 + (b - 0xdc00))%Z.
Definition at_char (s : list Z) (o : nat) (c : Z) : Prop :=
  o < length s /\
  ((width c = 1 /\ nth o s 0%Z = c /\ ~ (S o < length s /\ lead (nth o s 0%Z) = true /\ trail (nth (S o) s 0%Z) = true)) \/
   (width c = 2 /\ S o < length s /\ lead (nth o s 0%Z) = true /\ trail (nth (S o) s 0%Z) = true /\
    c = pairv (nth o s 0%Z) (nth (S o) s 0%Z))).

Lemma width_unit : forall c, code_unit c -> width c = 1.
Proof. intros c [A B]. unfold width. destruct (Z.ltb_spec c 0x10000); lia. Qed.
Lemma width_pair : forall a b, lead a = true -> trail b = true -> width (pairv a b) = 2.
Proof.
  unfold lead, trail, width, pairv. intros a b A B.
  destruct (Z.leb_spec 0xd800 a); [|discriminate]. destruct (Z.leb_spec 0xdc00 b); [|discriminate].
  destruct (Z.ltb_spec (0x10000 + (a - 0xd800) * 1024 + (b - 0xdc00)) 0x10000); lia.
Qed.
Lemma unit_index_0 : forall l, unit_index l 0 = 0.
Proof. reflexivity. Qed.
Lemma unit_index_S : forall c l i, unit_index (c :: l) (S i) = width c + unit_index l i.
Proof. reflexivity. Qed.
Lemma at_shift : forall a s o c, at_char s o c -> at_char (a :: s) (S o) c.
Proof.
  intros a s o c [L H]. split; [cbn [length]; lia|].
  destruct H as [(A & B & C)|(A & B & C)]; [left|right]; repeat split; auto; try tauto.
  - intros (Q1 & Q2 & Q3). apply C. cbn [length] in Q1. repeat split; auto. lia.
  - cbn [length]. lia.
Qed.
Lemma at_first : forall a s, code_unit a ->
  (forall b q, s = b :: q -> lead a && trail b = false) -> at_char (a :: s) 0 a.
Proof.
  intros a s U H. split; [cbn; lia|]. left. repeat split; auto using width_unit.
  intros (A & B & C). destruct s as [|b q]; [cbn in A; lia|]. cbn in B, C.
  specialize (H b q eq_refl). rewrite B, C in H. discriminate.
Qed.
Lemma points_ind : forall P : list Z -> list Z -> Prop,
  P [] [] ->
  (forall a s, code_unit a -> Forall code_unit s -> (forall b q, s = b :: q -> lead a && trail b = false) ->
     P s (code_points s) -> P (a :: s) (a :: code_points s)) ->
  (forall a b q, lead a = true -> trail b = true -> Forall code_unit q ->
     P q (code_points q) -> P (a :: b :: q) (pairv a b :: code_points q)) ->
  forall s, Forall code_unit s -> P s (code_points s).
Proof.
  intros P H0 H1 H2 s.
  enough (Hn : forall m s, length s <= m -> Forall code_unit s -> P s (code_points s)) by (intros; eauto).
  induction m as [|m IH]; intros s0 L F.
  - destruct s0; [exact H0|simpl in L; lia].
  - destruct s0 as [|a s0]; [exact H0|]. inversion F as [|? ? Fa Fs]; subst. simpl in L.
    destruct s0 as [|b q].
    { apply (H1 a []); auto; try (intros; discriminate). }
    cbn [code_points]. destruct (lead a && trail b) eqn:Ep.
    + apply andb_prop in Ep. inversion Fs; subst. apply H2; try tauto. apply IH; auto. simpl in L. lia.
    + apply (H1 a (b :: q)); auto.
      * intros b' q' Q. injection Q as <- <-. auto.
      * apply IH; auto. lia.
Qed.
Lemma points_at : forall s, Forall code_unit s ->
  unit_index (code_points s) (length (code_points s)) = length s /\
  forall i, i < length (code_points s) -> at_char s (unit_index (code_points s) i) (nth i (code_points s) 0%Z).
Proof.
  apply (points_ind (fun s l => unit_index l (length l) = length s /\
    forall i, i < length l -> at_char s (unit_index l i) (nth i l 0%Z))).
  - split; auto. simpl. intros. lia.
  - intros a s U F N [L H]. cbn [length]. rewrite unit_index_S, width_unit, L by auto. split; [lia|].
    intros [|i] Hi.
    + rewrite unit_index_0. apply at_first; auto.
    + rewrite unit_index_S, width_unit by auto. cbn [nth plus]. apply at_shift. apply H. lia.
  - intros a b q A B F [L H]. cbn [length]. rewrite unit_index_S, width_pair, L by auto. split; [lia|].
    intros [|i] Hi.
    + rewrite unit_index_0. cbn [nth]. split; [cbn; lia|]. right. cbn [nth length].
      repeat split; auto using width_pair. lia.
    + rewrite unit_index_S, width_pair by auto. cbn [nth plus]. apply at_shift. apply at_shift. apply H. lia.
Qed.
Lemma unit_index_next : forall l i, i < length l -> unit_index l (S i) = unit_index l i + width (nth i l 0%Z).
Proof.
  induction l as [|c l IH]; intros i H; [simpl in H; lia|].
  destruct i as [|i].
  - rewrite unit_index_S. rewrite !unit_index_0. cbn [nth]. lia.
  - rewrite !unit_index_S, IH by (simpl in H; lia). cbn [nth]. lia.
Qed.
Lemma width_pos : forall c, 1 <= width c.
Proof. intros. unfold width. destruct (_ <? _)%Z; lia. Qed.
Lemma unit_index_mono : forall l j i, i < j -> j <= length l -> unit_index l i < unit_index l j.
Proof.
  induction j as [|j IH]; intros i A B; [lia|].
  rewrite unit_index_next by lia. pose proof (width_pos (nth j l 0%Z)).
  destruct (Nat.eq_dec i j) as [->|N]; [lia|]. specialize (IH i). lia.
Qed.
Lemma lead_not_trail : forall c, trail c = true -> lead c = false.
Proof. unfold lead, trail. intros c H. destruct (Z.leb_spec 0xdc00 c); [|discriminate].
  apply andb_false_iff. right. apply Z.leb_gt. lia. Qed.
Lemma pair_to_uc_value : forall a b, lead a = true -> trail b = true -> pair_to_uc a b = pairv a b.
Proof.
  unfold lead, trail, pair_to_uc, pairv. intros a b A B.
  apply andb_prop in A. apply andb_prop in B. rewrite !Z.leb_le in A, B.
  rewrite StrProofs.lor_low10 by lia. lia.
Qed.

Section text.
  Variable E : env.
  Hypothesis Hu : Forall code_unit (str E).
  Notation W := (code_world E).
  Notation cp := (code_points (str E)).

  Lemma text_inlen : inlen W = text_len E.
  Proof. reflexivity. Qed.
  Lemma place_mono : forall i j, i < j -> j <= text_len E -> place E i < place E j.
  Proof.
    unfold place, text_len. intros i j A B. destruct (fl_u E); auto. apply unit_index_mono; auto.
  Qed.
  Lemma place_last : place E (text_len E) = length (str E).
  Proof.
    unfold place, text_len. destruct (fl_u E); auto. apply points_at. auto.
  Qed.
  Lemma place_0 : place E 0 = 0.
  Proof. unfold place. destruct (fl_u E); auto. Qed.
  Lemma place_S : forall i, i < text_len E -> place E (S i) = place E i + (if fl_u E then width (char_at W i) else 1).
  Proof.
    unfold place, text_len, char_at. cbn [code_world input]. intros i H. destruct (fl_u E); [|lia].
    apply unit_index_next. auto.
  Qed.
  Lemma char_here : forall i, i < text_len E ->
    if fl_u E then at_char (str E) (place E i) (char_at W i)
    else place E i < length (str E) /\ unit_at E (place E i) = char_at W i.
  Proof.
    unfold place, text_len, char_at, unit_at. cbn [code_world input]. intros i H. destruct (fl_u E); [|auto].
    apply points_at; auto.
  Qed.
  Lemma read_fwd : forall i, i < text_len E -> read_char E false (place E i) = Some (char_at W i, place E (S i)).
  Proof.
    intros i H. rewrite place_S by auto. pose proof (char_here i H) as C. unfold read_char.
    destruct (fl_u E) eqn:Eu.
    - destruct C as [L C]. destruct (Nat.leb_spec (length (str E)) (place E i)); [lia|].
      unfold unit_at. destruct C as [(A & B & N)|(A & B & C & D & F)].
      + rewrite B, A. destruct (Nat.ltb_spec (place E i) (length (str E) - 1)); cbn [andb]; auto.
        destruct (is_lead (char_at W i)) eqn:El; auto.
        rewrite Nat.add_1_r. destruct (is_trail (nth (S (place E i)) (str E) 0%Z)) eqn:Et; [|reflexivity].
        exfalso. apply N. rewrite B. repeat split; auto. lia.
      + rewrite A. destruct (Nat.ltb_spec (place E i) (length (str E) - 1)); [|lia]. cbn [andb].
        change (is_lead (nth (place E i) (str E) 0%Z)) with (lead (nth (place E i) (str E) 0%Z)). rewrite C.
        rewrite Nat.add_1_r. change (is_trail (nth (S (place E i)) (str E) 0%Z)) with (trail (nth (S (place E i)) (str E) 0%Z)). rewrite D.
        rewrite pair_to_uc_value by auto. rewrite <- F. reflexivity.
    - destruct C as [L ->]. destruct (Nat.leb_spec (length (str E)) (place E i)); [lia|].
      rewrite andb_false_r. reflexivity.
  Qed.
  (** the code unit before a character *)
  Lemma unit_before : forall i, i < text_len E -> exists o, place E (S i) = S o /\ o < length (str E) /\
    (char_at W i = unit_at E o /\ (fl_u E = true -> o = place E i) \/
     fl_u E = true /\ (0x10000 <= char_at W i)%Z /\ trail (unit_at E o) = true).
  Proof.
    intros i H. rewrite place_S by auto. pose proof (char_here i H) as C.
    destruct (fl_u E) eqn:Eu.
    - destruct C as [L C]. destruct C as [(A & B & N)|(A & B & C & D & F)]; rewrite A.
      + exists (place E i). repeat split; auto; try lia. 
      + exists (S (place E i)). repeat split; auto; try lia. right. repeat split; auto.
        unfold width in A. destruct (Z.ltb_spec (char_at W i) 0x10000); [discriminate|auto].
    - destruct C as [L C]. exists (place E i). repeat split; auto; try lia.
  Qed.
  Lemma read_bwd : forall i, i < text_len E -> read_char E true (place E (S i)) = Some (char_at W i, place E i).
  Proof.
    intros i H. rewrite place_S by auto. pose proof (char_here i H) as C. unfold read_char.
    destruct (fl_u E) eqn:Eu.
    - destruct C as [L C]. unfold unit_at. destruct C as [(A & B & N)|(A & B & C & D & F)]; rewrite A.
      + rewrite Nat.add_1_r, B, andb_true_r.
        destruct ((1 <? S (place E i)) && is_trail (char_at W i)) eqn:Et; [|reflexivity].
        apply andb_prop in Et. destruct Et as [E1 E2]. apply Nat.ltb_lt in E1.
        assert (Q : is_lead (nth (place E i - 1) (str E) 0%Z) = false).
        { destruct i as [|i]; [rewrite place_0 in E1; lia|].
          pose proof (char_here i ltac:(lia)) as C. rewrite Eu in C. destruct C as [L' C].
          assert (Hp : place E (S i) = place E i + width (char_at W i)) by (rewrite place_S by lia; rewrite Eu; reflexivity).
          destruct C as [(A' & B' & N')|(A' & B' & C' & D' & F')].
          - rewrite Hp, A', Nat.add_sub. destruct (is_lead (nth (place E i) (str E) 0%Z)) eqn:El; auto.
            exfalso. apply N'. replace (S (place E i)) with (place E (S i)) by lia. repeat split; auto.
            rewrite B. exact E2.
          - replace (place E (S i) - 1) with (S (place E i)) by lia. apply lead_not_trail in D'. exact D'. }
        rewrite Q. reflexivity.
      + replace (place E i + 2) with (S (S (place E i))) by lia. cbn [Nat.ltb Nat.leb andb].
        change (is_trail (nth (S (place E i)) (str E) 0%Z)) with (trail (nth (S (place E i)) (str E) 0%Z)). rewrite D.
        replace (S (place E i) - 1) with (place E i) by lia.
        change (is_lead (nth (place E i) (str E) 0%Z)) with (lead (nth (place E i) (str E) 0%Z)). rewrite C.
        rewrite pair_to_uc_value by auto. rewrite <- F. reflexivity.
    - destruct C as [L C]. rewrite Nat.add_1_r. rewrite andb_false_r. cbn [andb]. rewrite C. reflexivity.
  Qed.
  Lemma get_before : forall i, i <= text_len E ->
    match i with
    | O => get_char E (Z.of_nat (place E i) - 1) = (-1)%Z
    | S j => get_char E (Z.of_nat (place E i) - 1) = char_at W j /\ (0 <= char_at W j)%Z \/
             (0x10000 <= char_at W j)%Z /\ trail (get_char E (Z.of_nat (place E i) - 1)) = true
    end.
  Proof.
    intros [|j] H.
    - rewrite place_0. reflexivity.
    - destruct (unit_before j ltac:(lia)) as (o & -> & L & C).
      assert (G : get_char E (Z.of_nat (S o) - 1) = unit_at E o).
      { unfold get_char, unit_at. replace (Z.of_nat (S o) - 1)%Z with (Z.of_nat o) by lia.
        destruct (Z.ltb_spec (Z.of_nat o) 0); [lia|]. destruct (Z.leb_spec (Z.of_nat (length (str E))) (Z.of_nat o)); [lia|].
        rewrite Nat2Z.id. reflexivity. }
      rewrite G. destruct C as [[-> _]|(_ & A & B)]; [left|right]; auto. split; auto.
      rewrite Forall_forall in Hu. apply (Hu (unit_at E o)). apply nth_In. auto.
  Qed.
  Lemma get_here : forall i, i <= text_len E ->
    (i = text_len E /\ get_char E (Z.of_nat (place E i)) = (-1)%Z) \/
    (i < text_len E /\ get_char E (Z.of_nat (place E i)) = char_at W i /\ (0 <= char_at W i)%Z) \/
    (i < text_len E /\ (0x10000 <= char_at W i)%Z /\ lead (get_char E (Z.of_nat (place E i))) = true).
  Proof.
    intros i H. destruct (Nat.eq_dec i (text_len E)) as [->|N].
    - left. split; auto. rewrite place_last. unfold get_char.
      destruct (Z.ltb_spec (Z.of_nat (length (str E))) 0); auto. rewrite Z.leb_refl. reflexivity.
    - right. assert (Hi : i < text_len E) by lia. pose proof (char_here i Hi) as C.
      assert (L : place E i < length (str E)). { destruct (fl_u E); destruct C; auto. }
      assert (G : get_char E (Z.of_nat (place E i)) = unit_at E (place E i)).
      { unfold get_char, unit_at.
        destruct (Z.ltb_spec (Z.of_nat (place E i)) 0); [lia|]. destruct (Z.leb_spec (Z.of_nat (length (str E))) (Z.of_nat (place E i))); [lia|].
        rewrite Nat2Z.id. reflexivity. }
      assert (U : (0 <= unit_at E (place E i))%Z).
      { rewrite Forall_forall in Hu. apply (Hu (unit_at E (place E i))). apply nth_In. auto. }
      rewrite G. destruct (fl_u E).
      + destruct C as [_ C]. unfold unit_at in *. destruct C as [(A & B & _)|(A & B & D & F & Q)].
        * left. rewrite <- B. auto.
        * right. repeat split; auto. unfold width in A. destruct (Z.ltb_spec (char_at W i) 0x10000); [discriminate|auto].
      + destruct C as [_ C]. left. rewrite <- C. auto.
  Qed.
  Ltac nochar H := unfold lead, trail in H; apply andb_prop in H; rewrite !Z.leb_le in H;
    repeat match goal with |- context [(?a =? ?b)%Z] => destruct (Z.eqb_spec a b); [lia|] end.
  Lemma line_term_eq : forall c, is_line_terminator c = line_terminator c.
  Proof. intros. unfold is_line_terminator, line_terminator. cbn [existsb]. rewrite orb_false_r, !orb_assoc. reflexivity. Qed.
  Lemma not_line : forall c, (0x10000 <= c)%Z \/ lead c = true \/ trail c = true -> line_terminator c = false.
  Proof.
    intros c H. unfold lead, trail in H. rewrite !andb_true_iff, !Z.leb_le in H.
    unfold line_terminator. cbn [existsb].
    repeat match goal with |- context [(?a =? ?b)%Z] => destruct (Z.eqb_spec a b); [lia|] end. reflexivity.
  Qed.
  Lemma not_word : forall c, (0x10000 <= c)%Z \/ lead c = true \/ trail c = true -> is_word c = false.
  Proof.
    intros c H. unfold lead, trail in H. rewrite !andb_true_iff, !Z.leb_le in H.
    unfold is_word, is_alnum, StrModel.is_digit.
    repeat match goal with |- context [(?a =? ?b)%Z] => destruct (Z.eqb_spec a b); [lia|] end.
    repeat match goal with |- context [(?a <=? ?b)%Z] => destruct (Z.leb_spec a b); try lia end; reflexivity.
  Qed.
  Lemma start_eq : forall i, i <= text_len E ->
    let c := get_char E (Z.of_nat (place E i) - 1) in
    ((c =? -1)%Z || (fl_m E && is_line_terminator c)) = at_start W i.
  Proof.
    intros i H c. unfold at_start. cbn [code_world multiline]. pose proof (get_before i H) as B.
    destruct i as [|j]; fold c in B.
    - rewrite B. reflexivity.
    - rewrite line_term_eq. destruct B as [[-> B]|[B1 B2]].
      + destruct (Z.eqb_spec (char_at W j) (-1)); [lia|]. reflexivity.
      + rewrite !not_line by auto. destruct (Z.eqb_spec c (-1)) as [Q|]; auto. rewrite Q in B2. discriminate.
  Qed.
  Lemma end_eq : forall i, i <= text_len E ->
    let c := get_char E (Z.of_nat (place E i)) in
    ((c =? -1)%Z || (fl_m E && is_line_terminator c)) = at_end W i.
  Proof.
    intros i H c. unfold at_end. rewrite text_inlen. cbn [code_world multiline].
    destruct (get_here i H) as [[A B]|[(A & B & C)|(A & B & C)]]; fold c in B || fold c in C.
    - rewrite B. destruct (Nat.leb_spec (text_len E) i); [reflexivity|lia].
    - rewrite B. destruct (Nat.leb_spec (text_len E) i); [lia|].
      destruct (Z.eqb_spec (char_at W i) (-1)); [lia|]. rewrite line_term_eq. reflexivity.
    - destruct (Nat.leb_spec (text_len E) i); [lia|]. rewrite line_term_eq, !not_line by auto.
      destruct (Z.eqb_spec c (-1)) as [Q|]; auto. rewrite Q in C. discriminate.
  Qed.
  Lemma word_before_eq : forall i, i <= text_len E ->
    is_word (get_char E (Z.of_nat (place E i) - 1)) = word_before W i.
  Proof.
    intros i H. unfold word_before. cbn [code_world wordchar]. pose proof (get_before i H) as B.
    destruct i as [|j].
    - rewrite B. reflexivity.
    - destruct B as [[-> B]|[B1 B2]]; auto. rewrite !not_word; auto.
  Qed.
  Lemma word_at_eq : forall i, i <= text_len E ->
    is_word (get_char E (Z.of_nat (place E i))) = word_at W i.
  Proof.
    intros i H. unfold word_at. rewrite text_inlen. cbn [code_world wordchar].
    destruct (get_here i H) as [[A B]|[(A & B & C)|(A & B & C)]].
    - rewrite B. destruct (Nat.ltb_spec i (text_len E)); [lia|]. reflexivity.
    - rewrite B. destruct (Nat.ltb_spec i (text_len E)); [|lia]. reflexivity.
    - destruct (Nat.ltb_spec i (text_len E)); [|lia]. rewrite !not_word by auto. reflexivity.
  Qed.
  (** each character is a code unit *)
  Definition one_unit : Prop := fl_u E = false \/ code_points (str E) = str E.
  Lemma unit_index_all : forall l i, Forall code_unit l -> i <= length l -> unit_index l i = i.
  Proof.
    induction l as [|c l IH]; intros i F H.
    - simpl in H. replace i with 0 by lia. reflexivity.
    - inversion F; subst. destruct i as [|i]; [reflexivity|].
      rewrite unit_index_S, width_unit, IH by (auto; simpl in H; lia). lia.
  Qed.
  Lemma one_unit_flat : one_unit -> flat E W (place E).
  Proof.
    intros H. unfold flat. rewrite text_inlen. unfold place, text_len, char_at, unit_at. cbn [code_world input canon].
    destruct H as [-> | H].
    - split; auto.
    - rewrite H. split.
      + intros i Hi. destruct (fl_u E); auto. apply unit_index_all; auto.
      + intros i Hi. destruct (fl_u E); reflexivity.
  Qed.
  Definition offs (r : option (nat * nat)) : option (Z * Z) :=
    match r with None => None | Some (a, b) => Some (Z.of_nat (place E a), Z.of_nat (place E b)) end.
  Lemma machine_ok : forall p i m, well_numbered p (group_num E) ->
    (one_unit \/ forallb (forallb no_back_t) p = true) -> i <= text_len E ->
    match m_match W true p i with
    | Found y => exists fuel v m', run E fuel (start E p (place E i) m) = Some (Halt true v m') /\
        length v = 2 * group_num E /\ e y <= text_len E /\
        vget v 0 = Z.of_nat (place E i) /\ vget v 1 = Z.of_nat (place E (e y)) /\
        length (cs y) = group_num E /\
        (forall j, 1 <= j < group_num E -> vcap v j = offs (cap (cs y) j)) /\
        (forall j a b, cap (cs y) j = Some (a, b) -> a <= b /\ b <= text_len E)
    | Failure => exists fuel v m', run E fuel (start E p (place E i) m) = Some (Halt false v m')
    | Out => False
    end.
  Proof.
    intros p i m Wn Fl Hi.
    pose proof (match_not_out W true p i Hi) as No.
    pose proof (match_ok E W (place E) eq_refl eq_refl (fun a c => eq_refl) place_mono place_last place_0
      read_fwd read_bwd start_eq end_eq word_before_eq word_at_eq p i m Wn) as M.
    assert (Fl' : flat E W (place E) \/ forallb (forallb no_back_t) p = true).
    { destruct Fl as [Fl|Fl]; auto using one_unit_flat. }
    specialize (M Fl' Hi). destruct (m_match W true p i); auto.
  Qed.
End text.
Lemma run_det : forall E f1 f2 s o1 o2, run E f1 s = Some o1 -> run E f2 s = Some o2 -> o1 = o2.
Proof.
  intros E. induction f1 as [|f1 IH]; intros f2 s o1 o2 A B; [discriminate|].
  destruct f2 as [|f2]; [discriminate|]. cbn [run] in A, B.
  destruct (step E s); try congruence. eapply IH; eauto.
Qed.
