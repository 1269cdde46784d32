(** Property theorems C44 (replacement templates) and C55 (replace,
    replaceAll with a string pattern). *)
From Coq Require Import List ZArith Bool Lia.
Import ListNotations.
From Verif Require Import StrModel StrSpec StrProofs SubstModel SubstSpec SubstProofs.
Local Open Scope Z_scope.

(** ** C44 *)

(** Whenever the match lies inside the subject, the expansion is the specified
    one (an exception only if reading a group throws) and nothing outside the
    subject is read. *)
Theorem C44_substitution_guarded : forall s pos m cn caps groups ans templ,
  (pos + length m <= length s)%nat -> 0 <= cn -> Z.of_nat (length caps) = Z.max (cn - 1) 0 ->
  agrees groups ans ->
  exists o, expands s pos m caps ans templ o /\
    get_substitution s pos m cn caps groups templ = to_sres o.
Proof.
  intros s pos m cn caps groups ans templ H1 H2 H3 H4.
  exact (get_substitution_spec s pos m cn caps groups ans H1 H2 H3 H4 templ).
Qed.
Print Assumptions C44_substitution_guarded.

(** The specification determines the result. *)
Theorem C44_expansion_unique : forall s pos m caps ans templ o1 o2,
  expands s pos m caps ans templ o1 -> expands s pos m caps ans templ o2 -> o1 = o2.
Proof. exact expands_fun. Qed.
Print Assumptions C44_expansion_unique.

(** A user-supplied exec result can report a match that reaches past the end of
    the subject; then $' fails the range assertion of rjs_string_substr instead
    of giving the empty string. *)
Theorem C44_substitution_refuted : exists s pos m caps templ,
  (pos <= length s)%nat /\ expands s pos m caps None templ (Some []) /\
  get_substitution s pos m 1 caps None templ = SUB.
Proof.
  exists [97; 98], 1%nat, [98; 99; 100], [], [36; 39]. split; [cbn; lia|]. split; [|vm_compute; reflexivity].
  exact (e_text [97; 98] 1 [98; 99; 100] [] None [36; 39] [] [] []
    (p_after [97; 98] 1 [98; 99; 100] [] None []) (e_nil _ _ _ _ _)).
Qed.
Print Assumptions C44_substitution_refuted.

Example C44_witness :
  get_substitution [97; 98; 99; 100] 1 [98; 99] 3 [Some [66]; None] None
    (* "[$`|$&|$'|$1|$2|$3|$01|$$|$x|$<n>]" *)
    [91; 36; 96; 124; 36; 38; 124; 36; 39; 124; 36; 49; 124; 36; 50; 124; 36; 51; 124; 36; 48; 49; 124; 36; 36; 124;
     36; 120; 124; 36; 60; 110; 62; 93] =
    SOk [91; 97; 124; 98; 99; 124; 100; 124; 66; 124; 124; 36; 51; 124; 66; 124; 36; 124;
     36; 120; 124; 36; 60; 110; 62; 93] /\
  get_substitution [97] 0 [97] 1 [] (Some (fun n => if content_equal n [110] then SOk (Some [78]) else SThrow))
    [36; 60; 110; 62] = SOk [78] /\
  get_substitution [97] 0 [97] 0 [] None [36; 48; 48; 36] = SOk [36; 48; 48; 36].
Proof. vm_compute. repeat split; reflexivity. Qed.

Example C44_agrees_witness :
  agrees (Some (fun n => if content_equal n [110] then SOk (Some [78]) else SThrow))
         (Some (fun n => if content_equal n [110] then AText [78] else AThrow)).
Proof. intros n. destruct (content_equal n [110]); reflexivity. Qed.

(** ** C55 *)

(** replace: nothing found - the text itself; otherwise exactly the first
    occurrence is replaced. *)
Theorem C55_replace : forall s search r,
  (forall i, ~ occurs search s i) /\ js_replace s search r = SOk s \/
  exists i, occurs search s i /\ (forall j, occurs search s j -> (i <= j)%nat) /\
    js_replace s search r = sbind (replacement s search r i)
      (fun x => SOk (firstn i s ++ x ++ skipn (i + length search) s)).
Proof. exact js_replace_spec. Qed.
Print Assumptions C55_replace.

(** The template of replace and replaceAll is always expanded in bounds. *)
Theorem C55_template_in_bounds : forall s search t pos, occurs search s pos ->
  exists x, replacement s search (RTemplate t) pos = SOk x /\ expands s pos search [] None t (Some x).
Proof. exact template_no_ub. Qed.
Print Assumptions C55_template_in_bounds.

Theorem C55_replaceAll_template : forall s search t,
  exists l reps, matches search s 0 l /\
    Forall2 (fun i x => expands s i search [] None t (Some x)) l reps /\
    js_replaceAll s search (RTemplate t) = SOk (weave search s 0 l reps).
Proof. exact js_replaceAll_template. Qed.
Print Assumptions C55_replaceAll_template.

Theorem C55_replaceAll_function : forall s search f, (forall i, f i <> SUB) ->
  exists l, matches search s 0 l /\
    ((exists reps, Forall2 (fun i x => f i = SOk x) l reps /\
        js_replaceAll s search (RFunc f) = SOk (weave search s 0 l reps)) \/
     (exists i, In i l /\ f i = SThrow /\ js_replaceAll s search (RFunc f) = SThrow)).
Proof. exact js_replaceAll_func. Qed.
Print Assumptions C55_replaceAll_function.

(** The set of positions is determined by text and pattern. *)
Theorem C55_matches_unique : forall p s from l1 l2, matches p s from l1 -> matches p s from l2 -> l1 = l2.
Proof. exact matches_fun. Qed.
Print Assumptions C55_matches_unique.

Example C55_witness :
  js_replace [97; 98; 97; 98] [98] (RTemplate [60; 36; 38; 62]) = SOk [97; 60; 98; 62; 97; 98] /\
  js_replaceAll [97; 97; 97; 98] [97; 97] (RTemplate [120]) = SOk [120; 97; 98] /\
  js_replaceAll [97; 98] [] (RTemplate [45]) = SOk [45; 97; 45; 98; 45] /\
  js_replaceAll [97; 98; 97] [97] (RFunc (fun i => SOk [48 + Z.of_nat i])) = SOk [48; 98; 50].
Proof. vm_compute. repeat split; reflexivity. Qed.
