(** A world of the standard, for patterns without the flag i. *)
From Coq Require Import ZArith List Bool Arith Lia.
Import ListNotations.
From Verif Require Import RegModel RegSpec RegCharSpec RegText RegEcma RegProofs.
From Verif Require StrModel StrSpec StrProofs.
Local Open Scope Z_scope.

Definition std_space (c : Z) : bool := StrModel.is_white_space c && negb (c =? 0x85).
Definition std_set (E : env) (k : cset) (c : Z) : bool :=
  match k with
  | CNormal d => c =? d
  | Cs => std_space c
  | CnotS => negb (std_space c)
  | Cd => StrModel.is_digit c
  | CnotD => negb (StrModel.is_digit c)
  | Cw => is_word c
  | CnotW => negb (is_word c)
  | Cp p v => prop_match E p v c
  | CnotP p v => negb (prop_match E p v c)
  end.
Definition std_item (E : env) (a : citem) (c : Z) : bool :=
  match a with CItem k => std_set E k c | CRange lo hi => (lo <=? c) && (c <=? hi) end.
Definition std_member (E : env) (a : atom) (c : Z) : bool :=
  match a with
  | AChar k => std_set E k c
  | AAll => fl_s E || negb (is_line_terminator c)
  | AClass neg items => xorb neg (existsb (fun a => std_item E a c) items)
  | _ => false
  end.
Definition std_world (E : env) : world := {|
  input := if fl_u E then code_points (str E) else str E;
  member := std_member E;
  canon := fun c => c;
  wordchar := is_word;
  multiline := fl_m E;
  ngroups := group_num E;
  names := group_names E |}.
Lemma std_space_spec : forall c, std_space c = true <-> StrSpec.es_space c.
Proof.
  intros c. unfold std_space. rewrite andb_true_iff, negb_true_iff, StrProofs.white_space_spec, Z.eqb_neq.
  split; [tauto|]. intros H. split; auto. intros ->. unfold StrSpec.es_space in H. cbn [In] in H. lia.
Qed.
Lemma std_world_ok : forall E, fl_i E = false -> es_world E (std_world E).
Proof.
  intros E Hi.
  assert (Set_ : forall k c, std_set E k c = true <-> es_set E k c).
  { intros k c.
    assert (Wd : is_word c = true <-> es_word E c) by (rewrite es_word_plain by auto; apply word_spec).
    destruct k; cbn [std_set es_set].
    - apply Z.eqb_eq.
    - apply std_space_spec.
    - apply digit_spec.
    - exact Wd.
    - apply b_iff. apply std_space_spec.
    - apply b_iff. apply digit_spec.
    - apply b_iff. exact Wd.
    - tauto.
    - rewrite negb_true_iff. tauto. }
  assert (Item : forall a c, std_item E a c = true <-> es_item E a c).
  { intros [k|lo hi] c; cbn [std_item es_item]; auto. rewrite andb_true_iff, !Z.leb_le. tauto. }
  unfold es_world, std_world; cbn [input member canon wordchar multiline ngroups names].
  split; auto. split; [|split; [|split; [|auto]]].
  - intros a c C. destruct a; cbn [std_member es_member]; try (split; [discriminate|tauto]).
    + rewrite hits_plain by auto. auto.
    + rewrite hits_plain, orb_true_iff by auto. pose proof (b_iff _ _ (terminator_spec c)). tauto.
    + assert (Q : existsb (fun a => std_item E a c) items = true <-> exists it, In it items /\ es_item E it c).
      { rewrite existsb_exists. split; intros (x & A & B); exists x; split; auto; apply Item; auto. }
      destruct neg; rewrite hits_plain by auto; cbn [xorb].
      * apply b_iff. auto.
      * destruct (existsb _ _); auto.
  - intros c. symmetry. apply es_canon_id. auto.
  - intros c. rewrite es_word_plain by auto. apply word_spec.
Qed.
