(** Regular expressions: C69-C72 *)
From Coq Require Import ZArith List Bool Arith Lia.
Import ListNotations.
From Verif Require Import RegModel RegSpec RegCharSpec RegExecModel RegExecSpec.
From Verif Require Import RegBase RegProofs RegTerm RegText RegLang RegEcma RegWorld RegExecProofs.
From Verif Require StrSpec.
Local Open Scope nat_scope.

(** a small environment: letters of ASCII have two cases, U+017F has the upper case S *)
Definition up0 (c : Z) : list Z :=
  if ((97 <=? c) && (c <=? 122))%Z then [(c - 32)%Z] else if (c =? 0x17f)%Z then [83%Z] else [c].
Definition fold0 (c : Z) : Z :=
  if ((65 <=? c) && (c <=? 90))%Z then (c + 32)%Z else if (c =? 0x17f)%Z then 115%Z
  else if (c =? 0x212a)%Z then 107%Z else c.
Definition env0 (i u : bool) (s : list Z) (g : nat) : env :=
  {| fl_i := i; fl_u := u; fl_m := false; fl_s := false; fold_case := fold0; to_upper := up0;
     prop_match := fun _ _ c => ((65 <=? c) && (c <=? 90))%Z; str := s; group_num := g; group_names := repeat (-1)%Z g |}.
Definition ch (c : Z) (g : nat) : term := Term (AChar (CNormal c)) 1 (Some 1) g g true.

(** * C69: the machine is the backtracking matcher *)
(** /(a|ab)(c|bcd)(d* )/ on "abcd" *)
Definition pat_abcd : pattern :=
  [[Term (AGroup 1 [[ch 97 2]; [ch 97 2; ch 98 2]]) 1 (Some 1) 1 2 true;
    Term (AGroup 2 [[ch 99 3]; [ch 98 3; ch 99 3; ch 100 3]]) 1 (Some 1) 2 3 true;
    Term (AGroup 3 [[Term (AChar (CNormal 100)) 0 None 4 4 true]]) 1 (Some 1) 3 4 true]].
Definition env_abcd := env0 false false [97; 98; 99; 100]%Z 4.
Example C69_witness :
  Forall code_unit (str env_abcd) /\ well_numbered pat_abcd (group_num env_abcd) /\ one_unit env_abcd /\
  m_match (code_world env_abcd) true pat_abcd 0 =
    Found (St 4 [None; Some (0, 1); Some (1, 4); Some (4, 4)]) /\
  match run env_abcd 100 (start env_abcd pat_abcd 0 []) with
  | Some (Halt true v _) => v = [0; 4; 0; 1; 1; 4; 4; 4]%Z
  | _ => False
  end.
Proof. vm_compute. split; [repeat constructor; discriminate|]. repeat split; auto. Qed.

(** the machine halts with the answer of the matcher: whether there is a match, its
    end and its captures; any other run gives the same *)
Theorem C69_machine_answer : forall E p i m, Forall code_unit (str E) -> well_numbered p (group_num E) ->
  (one_unit E \/ forallb (forallb no_back_t) p = true) -> i <= text_len E ->
  match m_match (code_world E) true p i with
  | Found y => exists fuel v m', run E fuel (start E p (place E i) m) = Some (Halt true v m') /\
      length v = 2 * group_num E /\ e y <= text_len E /\
      vget v 0 = Z.of_nat (place E i) /\ vget v 1 = Z.of_nat (place E (e y)) /\
      length (cs y) = group_num E /\
      (forall j, 1 <= j < group_num E -> vcap v j = offs E (cap (cs y) j)) /\
      (forall j a b, cap (cs y) j = Some (a, b) -> a <= b /\ b <= text_len E)
  | Failure => exists fuel v m', run E fuel (start E p (place E i) m) = Some (Halt false v m')
  | Out => False
  end.
Proof. intros. apply machine_ok; auto. Qed.
Print Assumptions C69_machine_answer.

Theorem C69_deterministic : forall E f1 f2 s o1 o2, run E f1 s = Some o1 -> run E f2 s = Some o2 -> o1 = o2.
Proof. exact run_det. Qed.
Print Assumptions C69_deterministic.

(** no run leaves the arrays *)
Theorem C69_never_bad : forall E p i m fuel, Forall code_unit (str E) -> well_numbered p (group_num E) ->
  (one_unit E \/ forallb (forallb no_back_t) p = true) -> i <= text_len E ->
  run E fuel (start E p (place E i) m) <> Some Bad.
Proof.
  intros E p i m fuel U Wn Fl Hi H. pose proof (machine_ok E U p i m Wn Fl Hi) as M.
  destruct (m_match (code_world E) true p i); auto.
  - destruct M as (f & v & m' & R). pose proof (run_det _ _ _ _ _ _ H R). discriminate.
  - destruct M as (f & v & m' & R & _). pose proof (run_det _ _ _ _ _ _ H R). discriminate.
Qed.
Print Assumptions C69_never_bad.

(** the content of the memory of earlier matches has no influence *)
Theorem C69_memory : forall E p i m m2 f v w f2 o, Forall code_unit (str E) -> well_numbered p (group_num E) ->
  (one_unit E \/ forallb (forallb no_back_t) p = true) -> i <= text_len E ->
  run E f (start E p (place E i) m) = Some (Halt true v w) -> run E f2 (start E p (place E i) m2) = Some o ->
  exists v2 w2, o = Halt true v2 w2 /\ vget v2 0 = vget v 0 /\ vget v2 1 = vget v 1 /\
    forall j, 1 <= j < group_num E -> vcap v2 j = vcap v j.
Proof.
  intros E p i m m2 f v w f2 o U Wn Fl Hi H H2.
  pose proof (machine_ok E U p i m Wn Fl Hi) as M. pose proof (machine_ok E U p i m2 Wn Fl Hi) as M2.
  destruct (m_match (code_world E) true p i) as [|y|]; [| |contradiction].
  - destruct M as (g & v' & m' & R). pose proof (run_det _ _ _ _ _ _ H R). discriminate.
  - destruct M as (g & v' & m' & R & A & B & C & D & F & G & _).
    destruct M2 as (g2 & v2' & m2' & R2 & A2 & B2 & C2 & D2 & F2 & G2 & _).
    pose proof (run_det _ _ _ _ _ _ H R) as Q. injection Q as -> ->.
    pose proof (run_det _ _ _ _ _ _ H2 R2) as Q. subst o.
    exists v2', m2'. split; auto. split; [congruence|]. split; [congruence|]. intros j Hj. rewrite G, G2; auto.
Qed.
Print Assumptions C69_memory.

(** a pattern without back references matches at a position iff some text from there is
    in its language *)
Theorem C69_language : forall E p i m, Forall code_unit (str E) -> well_numbered p (group_num E) ->
  forallb (forallb no_back_t) p = true -> i <= text_len E ->
  ((exists fuel v m', run E fuel (start E p (place E i) m) = Some (Halt true v m')) <->
   exists j, sat_pat (code_world E) p true i j) /\
  (forall fuel v m', run E fuel (start E p (place E i) m) = Some (Halt true v m') ->
   exists j, vget v 1 = Z.of_nat (place E j) /\ sat_pat (code_world E) p true i j).
Proof.
  intros E p i m U Wn Nb Hi.
  pose proof (machine_ok E U p i m Wn (or_intror Nb) Hi) as M.
  destruct (match_means (code_world E) true p i _ Wn Nb Hi) as [Me1 Me2].
  destruct (m_match (code_world E) true p i) as [|y|] eqn:Q; [| |contradiction].
  - destruct M as (f & v & m' & R). split; [split|].
    + intros (f' & v' & m2 & R'). pose proof (run_det _ _ _ _ _ _ R R'). discriminate.
    + intros K. apply Me1 in K. destruct K as (y & K). discriminate.
    + intros f' v' m2 R'. pose proof (run_det _ _ _ _ _ _ R R'). discriminate.
  - destruct M as (f & v & m' & R & A & B & C & D & _). split; [split|].
    + intros _. apply Me1. eauto.
    + intros _. eauto.
    + intros f' v' m2 R'. pose proof (run_det _ _ _ _ _ _ R R') as K. injection K as -> ->. eauto.
Qed.
Print Assumptions C69_language.

(** * C70: the answer of the standard *)
Example C70_witness : es_world env_abcd (std_world env_abcd) /\ fl_i env_abcd = false /\ ~ In 0x85%Z (str env_abcd) /\
  forallb (forallb steady_t) pat_abcd = true /\
  m_match (std_world env_abcd) false pat_abcd 0 = Found (St 4 [None; Some (0, 1); Some (1, 4); Some (4, 4)]).
Proof.
  split; [apply std_world_ok; reflexivity|]. vm_compute. repeat split; auto.
  intros H. repeat destruct H as [H|H]; try discriminate. auto.
Qed.
(** without i and without U+0085, if what is repeated cannot be empty *)
Theorem C70_conforms : forall E V p i m, Forall code_unit (str E) -> es_world E V -> fl_i E = false -> ~ In 0x85%Z (str E) ->
  well_numbered p (group_num E) -> (one_unit E \/ forallb (forallb no_back_t) p = true) ->
  forallb (forallb steady_t) p = true -> i <= text_len E ->
  match m_match V false p i with
  | Found y => exists fuel v m', run E fuel (start E p (place E i) m) = Some (Halt true v m') /\
      vget v 0 = Z.of_nat (place E i) /\ vget v 1 = Z.of_nat (place E (e y)) /\
      (forall j, 1 <= j < group_num E -> vcap v j = offs E (cap (cs y) j))
  | Failure => exists fuel v m', run E fuel (start E p (place E i) m) = Some (Halt false v m')
  | Out => False
  end.
Proof.
  intros E V p i m U HV I N Wn Fl S Hi. pose proof (machine_ok E U p i m Wn Fl Hi) as M.
  rewrite (std_match E V U HV I N p i Wn S Hi) in M. destruct (m_match V false p i); auto.
  destruct M as (f & v & m' & R & A & B & C & D & F & G & _). exists f, v, m'. auto.
Qed.
Print Assumptions C70_conforms.
(** whether there is a match, for every pattern without back references *)
Theorem C70_found : forall E V p i m, Forall code_unit (str E) -> es_world E V -> fl_i E = false -> ~ In 0x85%Z (str E) ->
  well_numbered p (group_num E) -> forallb (forallb no_back_t) p = true -> i <= text_len E ->
  ((exists fuel v m', run E fuel (start E p (place E i) m) = Some (Halt true v m')) <->
   exists y, m_match V false p i = Found y).
Proof.
  intros E V p i m U HV I N Wn Nb Hi. pose proof (machine_ok E U p i m Wn (or_intror Nb) Hi) as M.
  rewrite <- (std_found E V U HV I N p i Wn Nb Hi).
  destruct (m_match (code_world E) true p i) as [|y|] eqn:Q; [| |contradiction].
  - destruct M as (f & v & m' & R). split; [|intros (y & K); discriminate].
    intros (f' & v' & m2 & R'). pose proof (run_det _ _ _ _ _ _ R R'). discriminate.
  - destruct M as (f & v & m' & R & _). split; intros _; eauto.
Qed.
Print Assumptions C70_found.
(** /(a* )*/ on "b": the standard leaves the capture undefined, the code sets it to the
    empty string; /(?:|a)*/ on "a": the standard matches "a", the code "" *)
Definition pat_empty : pattern := [[Term (AGroup 1 [[Term (AChar (CNormal 97)) 0 None 2 2 true]]) 0 None 1 2 true]].
Definition pat_opt : pattern := [[Term (APat [[]; [ch 97 1]]) 0 None 1 1 true]].
Theorem C70_empty_iteration_refuted :
  (let E := env0 false false [98%Z] 2 in
   es_world E (std_world E) /\ well_numbered pat_empty (group_num E) /\
   m_match (std_world E) false pat_empty 0 = Found (St 0 [None; None]) /\
   match run E 100 (start E pat_empty 0 []) with Some (Halt true v _) => v = [0; 0; 0; 0]%Z | _ => False end) /\
  (let E := env0 false false [97%Z] 1 in
   es_world E (std_world E) /\ well_numbered pat_opt (group_num E) /\
   m_match (std_world E) false pat_opt 0 = Found (St 1 [None]) /\
   match run E 100 (start E pat_opt 0 []) with Some (Halt true v _) => v = [0; 0]%Z | _ => False end).
Proof.
  split; (split; [apply std_world_ok; reflexivity|split; [reflexivity|split; [vm_compute; reflexivity|]]]);
    vm_compute; reflexivity.
Qed.
Print Assumptions C70_empty_iteration_refuted.
(** /(\ud83d)\1/u on "\ud83d😀": the second half of the match is the lead unit
    of a pair *)
Definition pat_back : pattern :=
  [[Term (AGroup 1 [[ch 0xd83d 2]]) 1 (Some 1) 1 2 true; Term (ABack 1) 1 (Some 1) 2 2 true]].
Theorem C70_unicode_back_reference_refuted :
  let E := env0 false true [0xd83d; 0xd83d; 0xde00]%Z 2 in
  es_world E (std_world E) /\ well_numbered pat_back (group_num E) /\
  m_match (std_world E) false pat_back 0 = Failure /\
  match run E 100 (start E pat_back 0 []) with Some (Halt true v _) => v = [0; 2; 0; 1]%Z | _ => False end.
Proof.
  split; [apply std_world_ok; reflexivity|split; [reflexivity|split; [vm_compute; reflexivity|]]];
    vm_compute; reflexivity.
Qed.
Print Assumptions C70_unicode_back_reference_refuted.

(** * C71: exec *)
(** /b(c)?/g on "abc" *)
Definition pat_bc : pattern :=
  [[ch 98 1; Term (AGroup 1 [[ch 99 2]]) 0 (Some 1) 1 2 true]].
Definition env_abc := env0 false false [97; 98; 99]%Z 2.
Example C71_witness :
  Forall code_unit (str env_abc) /\ (forall k, ~ (nth k (group_names env_abc) (-1) < -1)%Z) /\ well_numbered pat_bc 2 /\
  builtin_exec env_abc pat_bc 0 true false true 10 100 0 =
    Some (Some {| a_index := 1; a_elems := [Text [98; 99]%Z; Text [99%Z]]; a_groups := None;
                  a_indices := Some ([Some (1, 3); Some (2, 3)]%Z, None) |}, Some 3%Z).
Proof.
  split; [vm_compute; repeat constructor; discriminate|]. split.
  - intros [|[|[|k]]]; cbn; lia.
  - vm_compute. repeat split; auto.
Qed.
(** the leftmost match from lastIndex on, or null; lastIndex is written only with g or y *)
Theorem C71_exec : forall E p nn g y d i last, Forall code_unit (str E) ->
  (forall k, ~ (nth k (group_names E) (-1) < -1)%Z) -> well_numbered p (group_num E) ->
  (one_unit E \/ forallb (forallb no_back_t) p = true) -> 1 <= group_num E ->
  i <= text_len E -> (if g || y then last = place E i else i = 0) ->
  exists F, forall fuel tries, F <= fuel -> text_len E + 2 <= tries ->
    (exists j z a, leftmost (m_match (code_world E) true p) y (text_len E) i j z /\ answer_ok E nn d j z a /\
       builtin_exec E p nn g y d tries fuel last =
         Some (Some a, if g || y then Some (Z.of_nat (place E (e z))) else None)) \/
    (nowhere (m_match (code_world E) true p) y (text_len E) i /\
       builtin_exec E p nn g y d tries fuel last = Some (None, if g || y then Some 0%Z else None)).
Proof. intros. apply exec_ok; auto. Qed.
Print Assumptions C71_exec.
Theorem C71_past_end : forall E p nn g y d last fuel tries, g || y = true -> length (str E) < last -> 1 <= tries ->
  builtin_exec E p nn g y d tries fuel last = Some (None, Some 0%Z).
Proof. exact exec_past. Qed.
Print Assumptions C71_past_end.
(** with the matcher of the standard *)
Theorem C71_exec_conforms : forall E V p nn g y d i last, Forall code_unit (str E) ->
  (forall k, ~ (nth k (group_names E) (-1) < -1)%Z) -> es_world E V -> fl_i E = false -> ~ In 0x85%Z (str E) ->
  well_numbered p (group_num E) -> (one_unit E \/ forallb (forallb no_back_t) p = true) ->
  forallb (forallb steady_t) p = true -> 1 <= group_num E ->
  i <= text_len E -> (if g || y then last = place E i else i = 0) ->
  exists F, forall fuel tries, F <= fuel -> text_len E + 2 <= tries ->
    (exists j z a, leftmost (m_match V false p) y (text_len E) i j z /\ answer_ok E nn d j z a /\
       builtin_exec E p nn g y d tries fuel last =
         Some (Some a, if g || y then Some (Z.of_nat (place E (e z))) else None)) \/
    (nowhere (m_match V false p) y (text_len E) i /\
       builtin_exec E p nn g y d tries fuel last = Some (None, if g || y then Some 0%Z else None)).
Proof.
  intros E V p nn g y d i last U NN HV I N Wn Fl S G Hi Hl.
  destruct (exec_ok E U NN p nn g y d i last Wn Fl G Hi Hl) as (F & H). exists F. intros fuel tries Hf Ht.
  destruct (H fuel tries Hf Ht) as [(j & z & a & (A & B & C & D) & An & Q)|[Nw Q]]; [left|right].
  - exists j, z, a. split; auto. split; auto. rewrite <- (std_match E V U HV I N p j Wn S) by lia.
    split; auto. split; auto. intros k Hk. rewrite <- (std_match E V U HV I N p k Wn S) by lia. auto.
  - split; auto. intros k Hk Sk. rewrite <- (std_match E V U HV I N p k Wn S) by lia. auto.
Qed.
Print Assumptions C71_exec_conforms.
(** /(a)|b/ on "b": the element 1 of the array does not exist, the standard creates it
    with the value undefined *)
Definition pat_ab : pattern := [[Term (AGroup 1 [[ch 97 2]]) 1 (Some 1) 1 2 true]; [ch 98 2]].
Theorem C71_undefined_capture_refuted :
  well_numbered pat_ab 2 /\
  builtin_exec (env0 false false [98%Z] 2) pat_ab 0 false false false 10 100 0 =
    Some (Some {| a_index := 0; a_elems := [Text [98%Z]; Hole]; a_groups := None; a_indices := None |}, None).
Proof. vm_compute. auto. Qed.
Print Assumptions C71_undefined_capture_refuted.
(** exactly the captures that are undefined are missing *)
Theorem C71_holes : forall E nn d j z a, answer_ok E nn d j z a -> forall k, 1 <= k < group_num E ->
  (nth k (a_elems a) Hole = Hole <-> cap (cs z) k = None).
Proof.
  intros E nn d j z a (_ & _ & _ & H & _) k Hk. rewrite H by auto. destruct (cap (cs z) k); split; auto; discriminate.
Qed.
Print Assumptions C71_holes.
(** /\udf06/uy with lastIndex 1 on "𝌆": the code matches the second half of the
    pair; the standard takes the character at the index, U+1D306 *)
Theorem C71_half_pair_refuted :
  let E := env0 false true [0xd834; 0xdf06]%Z 1 in
  well_numbered [[ch 0xdf06 1]] 1 /\
  builtin_exec E [[ch 0xdf06 1]] 0 false true false 10 100 1 =
    Some (Some {| a_index := 1; a_elems := [Text [0xdf06%Z]]; a_groups := None; a_indices := None |}, Some 2%Z) /\
  m_match (std_world E) false [[ch 0xdf06 1]] 0 = Failure /\ text_len E = 1.
Proof. vm_compute. auto. Qed.
Print Assumptions C71_half_pair_refuted.

(** * C72: the character sets *)
Example C72_witness : es_char env_abc 98 /\
  code_member env_abc (AClass false [CRange 97 122; CItem Cd]) 98 = true /\
  code_member env_abc (AClass true [CRange 97 122; CItem Cd]) 98 = false.
Proof. vm_compute. repeat split; auto; discriminate. Qed.
Theorem C72_members : forall E a c, fl_i E = false -> es_char E c -> c <> 0x85%Z ->
  (code_member E a c = true <-> es_member E a c).
Proof. intros. apply member_plain; auto. Qed.
Print Assumptions C72_members.
Theorem C72_canonicalize : forall E c, canonicalize E c = es_canon E c <->
  ~ (fl_i E = true /\ fl_u E = false /\ exists u, to_upper E c = [u] /\ (128 <= c)%Z /\ (u < 128)%Z).
Proof. exact canon_iff. Qed.
Print Assumptions C72_canonicalize.
(** with i: characters, and classes of characters, of escapes whose sets are closed under
    canonical equality, and of ranges whose canonical forms are a range *)
Theorem C72_ignore_case_class : forall E neg items c, es_char E c -> canonicalize E c = es_canon E c ->
  Forall (fair E c) items -> (code_member E (AClass neg items) c = true <-> es_member E (AClass neg items) c).
Proof. exact fair_class. Qed.
Print Assumptions C72_ignore_case_class.
Theorem C72_ignore_case_char : forall E k c, es_char E c -> canonicalize E c = es_canon E c -> fair E c (CItem k) ->
  (code_member E (AChar k) c = true <-> es_member E (AChar k) c).
Proof. exact fair_char. Qed.
Print Assumptions C72_ignore_case_char.
Theorem C72_ignore_case_dot : forall E c, es_char E c -> closed E es_line_terminator ->
  (code_member E AAll c = true <-> es_member E AAll c).
Proof. exact fair_all. Qed.
Print Assumptions C72_ignore_case_dot.
(** /[a-c]/i has such a range *)
Example C72_witness_range : even_range (env0 true false [] 1) 97 99 /\
  code_member (env0 true false [] 1) (AClass false [CRange 97 99]) 66 = true.
Proof.
  split; [|reflexivity]. split.
  - intros d H. assert (Q : (d = 97 \/ d = 98 \/ d = 99)%Z) by lia.
    destruct Q as [-> |[-> | ->]]; cbn; split; try lia; unfold es_char; cbn; lia.
  - intros x H. cbn in H. assert (Q : (x = 65 \/ x = 66 \/ x = 67)%Z) by lia.
    destruct Q as [-> |[-> | ->]]; [exists 97%Z|exists 98%Z|exists 99%Z]; cbn; split; auto; lia.
Qed.
(** /[A-z]/i does not match "_"; /[Z-a]/i matches nothing *)
Theorem C72_range_refuted : let E := env0 true false [] 1 in
  (code_member E (AClass false [CRange 65 122]) 95 = false /\ es_member E (AClass false [CRange 65 122]) 95) /\
  (code_member E (AClass false [CRange 90 97]) 97 = false /\ es_member E (AClass false [CRange 90 97]) 97) /\
  forall c, code_member E (AClass false [CRange 90 97]) c = false.
Proof.
  split; [|split].
  - split; [reflexivity|]. exists 95%Z. split; [unfold es_char; cbn; lia|]. split; [|reflexivity].
    exists (CRange 65 122). split; [left; auto|]. cbn. lia.
  - split; [reflexivity|]. exists 97%Z. split; [unfold es_char; cbn; lia|]. split; [|reflexivity].
    exists (CRange 90 97). split; [left; auto|]. cbn. lia.
  - intros c. cbn [code_member match_class existsb match_class_atom].
    change (canonicalize (env0 true false [] 1) 90) with 90%Z. change (canonicalize (env0 true false [] 1) 97) with 65%Z.
    destruct (Z.leb_spec 90 (canonicalize (env0 true false [] 1) c)); destruct (Z.leb_spec (canonicalize (env0 true false [] 1) c) 65); auto. lia.
Qed.
Print Assumptions C72_range_refuted.
(** \s matches U+0085, \S does not *)
Theorem C72_space_refuted : forall E, fl_i E = false ->
  code_member E (AChar Cs) 0x85 = true /\ ~ es_member E (AChar Cs) 0x85 /\
  code_member E (AChar CnotS) 0x85 = false /\ es_member E (AChar CnotS) 0x85.
Proof.
  intros E H.
  assert (C : es_char E 0x85) by (unfold es_char; destruct (fl_u E); lia).
  assert (N : ~ StrSpec.es_space 0x85) by (unfold StrSpec.es_space; cbn [In]; lia).
  cbn [es_member]. rewrite !(hits_plain E H) by auto. cbn [es_set]. repeat split; auto.
Qed.
Print Assumptions C72_space_refuted.
(** /\w/iu does not match U+017F and U+212A, /\W/iu does; /s/i matches U+017F *)
Theorem C72_word_refuted : let E := env0 true true [] 1 in
  code_member E (AChar Cw) 0x17f = false /\ es_member E (AChar Cw) 0x17f /\
  code_member E (AChar Cw) 0x212a = false /\ es_member E (AChar Cw) 0x212a.
Proof.
  assert (H : forall c, (c = 0x17f \/ c = 0x212a)%Z -> es_member (env0 true true [] 1) (AChar Cw) c).
  { intros c H. exists c. split; [unfold es_char; cbn; lia|]. split; auto. right. split; auto. split; auto.
    destruct H as [-> | ->]; vm_compute; right; right; left; split; discriminate. }
  repeat split; auto.
Qed.
Print Assumptions C72_word_refuted.
Theorem C72_canonicalize_refuted : let E := env0 true false [] 1 in
  code_member E (AChar (CNormal 115)) 0x17f = true /\ ~ es_member E (AChar (CNormal 115)) 0x17f.
Proof. split; [reflexivity|]. intros (d & _ & Q & H). cbn [es_set] in Q. subst d. discriminate. Qed.
Print Assumptions C72_canonicalize_refuted.
(** /\p{Lu}/iu: only the folded character is tested *)
Theorem C72_property_refuted : let E := env0 true true [] 1 in
  code_member E (AChar (Cp 1 1)) 65 = false /\ es_member E (AChar (Cp 1 1)) 65.
Proof.
  split; [reflexivity|]. exists 65%Z. split; [unfold es_char; cbn; lia|]. split; reflexivity.
Qed.
Print Assumptions C72_property_refuted.
