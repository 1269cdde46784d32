(** C92, C93, C94: statements — byte code against completion records. *)
From Coq Require Import List Bool Arith.
From Verif Require Import FlowModel FlowSpec FlowFacts FlowProofs FlowAccept.
Import ListNotations.

(** ** The theorems *)

(** Calling a function: the interpreter stops with a result exactly when the
    statements' completion gives that result. *)
Theorem C92_function_body : forall A s code env w w' r,
  function_code s = Some code -> distinct [] s = true -> fine A s ->
  ((exists n, outcome A (run A n code (start A env w)) = Some (w', r)) <->
   (exists fuel c, exec A fuel env [] s w = Some (w', c) /\ called A c = Some r)).
Proof. intros A s code env w w' r HC HD HF. apply whole_iff, function_sim; assumption. Qed.

(** The state stack is always used as the commands expect. *)
Theorem C92_stack_discipline : forall A s code env w n,
  function_code s = Some code -> distinct [] s = true -> fine A s ->
  md A (run A n code (start A env w)) <> Bad A.
Proof. intros A s code env w n HC HD HF. apply (whole_good A code s (called A)), function_sim; assumption. Qed.

(** Evaluating a script: the completion value. *)
Theorem C93_completion_value : forall A s code env w w' r,
  eval_code s = Some code -> distinct [] s = true -> no_catch s = true -> fine A s ->
  ((exists n, outcome A (run A n code (start A env w)) = Some (w', r)) <->
   (exists fuel c, exec A fuel env [] s w = Some (w', c) /\ evaluated A c = Some r)).
Proof. intros A s code env w w' r HC HD HN HF. apply whole_iff, eval_sim; assumption. Qed.

Theorem C93_stack_discipline : forall A s code env w n,
  eval_code s = Some code -> distinct [] s = true -> no_catch s = true -> fine A s ->
  md A (run A n code (start A env w)) <> Bad A.
Proof. intros A s code env w n HC HD HN HF. apply (whole_good A code s (evaluated A)), eval_sim; assumption. Qed.

(** Code is made only for programs whose jumps all have a target … *)
Theorem C94_accepted_valid : forall s, function_code s <> None \/ eval_code s <> None -> escapes s = false.
Proof. exact accepted_valid. Qed.

(** … and for all of them, unless a break leaves the second branch of an if
    statement, a catch clause or a finally block for a label of that
    statement. *)
Theorem C94_valid_accepted : forall s, heard [] s = true ->
  (function_code s <> None <-> escapes s = false) /\ (eval_code s <> None <-> escapes s = false).
Proof. intros s H. split; [apply accepted_function|apply accepted_eval]; exact H. Qed.

(** ** A world for examples *)

(** Values are numbers: 0 is undefined, 1 false, 2 true.  Expressions below 10
    give their number, from 10 to 19 they throw the number without the ten,
    20 tells whether the log is shorter than four entries and adds one, 21 adds
    the scope's name, others give the last entry.  The world is the log. *)
Definition demo_eval (e : nat) (env : list nat) (w : list nat) : ans (list nat) nat nat :=
  if e <? 10 then (w, inl e, None)
  else if e <? 20 then (w, inr (e - 10), None)
  else if e =? 20 then (0 :: w, inl (if length w <? 4 then 2 else 1), None)
  else if e =? 21 then (hd 0 env :: w, inl 0, None)
  else (w, inl (hd 0 w), None).

Lemma demo_bool : forall b : bool, (fun v => 2 <=? v) (if b then 2 else 1) = b.
Proof. intros []; reflexivity. Qed.

Definition demo (close : list nat -> ans (list nat) nat unit) : world :=
  {| W := list nat; V := nat; undef := 0; vbool := fun b => if b then 2 else 1;
     truthy := fun v => 2 <=? v; truthy_bool := demo_bool; same := Nat.eqb;
     w_eval := demo_eval;
     w_bind := fun b v env w => (v :: w, inl tt, None);
     w_scope := fun d env w => (w, d + length env);
     w_copy := fun x w => (w, S x);
     w_with := fun d v env w => (w, inl d, None);
     w_open := fun c v w => (w, inl v, None);
     w_next := fun it w => (w, inl (if length w <? 5 then Some (3 + length w) else None), None);
     w_close := fun it w => close w |}.

Definition closes : world := demo (fun w => (9 :: w, inl tt, None)).
Definition close_throws : world := demo (fun w => (9 :: w, inr 8, None)).
Definition close_catches : world := demo (fun w => (9 :: w, inl tt, Some (false, 0))).

Lemma closes_keeps : close_keeps closes /\ close_never_throws closes.
Proof. split; intros it w; cbn; auto. Qed.

Lemma throws_keeps : close_keeps close_throws.
Proof. intros it w; cbn; auto. Qed.

Lemma throws_steady : steady close_throws.
Proof.
  repeat split; intros; cbn; auto. unfold demo_eval.
  destruct (e <? 10); [exact I|]. destruct (e <? 20); [exact I|]. destruct (e =? 20); [exact I|]. destruct (e =? 21); exact I.
Qed.

Definition result (A : world) (code : option (list instr)) (n : nat) (w : W A) : option (W A * (V A + V A)) :=
  match code with Some c => outcome A (run A n c (start A [] w)) | None => None end.
Definition expected (A : world) (f : completion A -> option (V A + V A)) (s : stmt) (n : nat) (w : W A)
  : option (W A * (V A + V A)) :=
  match exec A n [] [] s w with
  | Some (w', c) => match f c with Some r => Some (w', r) | None => None end
  | None => None
  end.

(** [L: for (x of y) { try { switch (x) { case 3: continue L; case 4: 5; default: break L } }
    finally { log } } return last], with closing that may throw elsewhere. *)
Definition busy : stmt :=
  Seq (Labelled 7
        (ForOf true (Some 1) 6 1
          (Try (Switch None 22 (CCons (Some 3) (Continue (Some 7))
                               (CCons (Some 4) (Expr 5) (CCons None (Break (Some 7)) CNil))))
               false None Nop true (Do 21))))
      (Return (Some 22)).

Example C92_witness :
  fine close_throws busy /\ fine closes busy /\ distinct [] busy = true /\
  result close_throws (function_code busy) 100 [] = Some ([9; 1; 5; 1; 3], inr 8) /\
  expected close_throws (called close_throws) busy 9 [] = Some ([9; 1; 5; 1; 3], inr 8) /\
  result closes (function_code busy) 100 [] = Some ([9; 1; 5; 1; 3], inl 9) /\
  expected closes (called closes) busy 9 [] = Some ([9; 1; 5; 1; 3], inl 9).
Proof.
  split; [right; split; [exact throws_keeps|right; split; [exact throws_steady|vm_compute; reflexivity]]|].
  split; [right; split; [apply closes_keeps|left; split; [apply closes_keeps|vm_compute; reflexivity]]|].
  repeat split; vm_compute; reflexivity.
Qed.

(** [do { try { if (log) { 3; continue } else 4; } finally { 5 } } while (log)] and an
    empty block: the value is that of the last turn. *)
Definition script : stmt :=
  Seq (DoWhile (Try (If 20 (Seq (Expr 3) (Continue None)) (Expr 4)) false None Nop true (Expr 5)) 20)
      (Block 1 Nop).

Example C93_witness :
  fine closes script /\ distinct [] script = true /\ no_catch script = true /\
  result closes (eval_code script) 100 [] = Some ([0; 0; 0; 0; 0; 0], inl 4) /\
  expected closes (evaluated closes) script 9 [] = Some ([0; 0; 0; 0; 0; 0], inl 4) /\
  result closes (eval_code script) 100 [0] = Some ([0; 0; 0; 0; 0], inl 3).
Proof. split; [left; split; reflexivity|]. repeat split; vm_compute; reflexivity. Qed.

Example C94_witness :
  heard [] busy = true /\ escapes busy = false /\ function_code busy <> None /\
  heard [] (While 2 (Labelled 1 (Block 1 (Continue (Some 1))))) = true /\
  function_code (While 2 (Labelled 1 (Block 1 (Continue (Some 1))))) = None.
Proof. repeat split; vm_compute; congruence. Qed.

(** ** Where the interpreter differs *)

(** Started in some world, the code ends with another result than the
    statement. *)
Definition differs (A : world) (code : option (list instr)) (f : completion A -> option (V A + V A)) (s : stmt) : Prop :=
  distinct [] s = true /\
  exists c w n fuel w1 w2 r r', code = Some c /\
    outcome A (run A n c (start A [] w)) = Some (w1, r) /\
    (exists cm, exec A fuel [] [] s w = Some (w2, cm) /\ f cm = Some r') /\ r <> r'.

Local Ltac differ w := split; [vm_compute; reflexivity|]; eexists; exists w; exists 100; exists 9; do 4 eexists;
  split; [reflexivity|]; split; [vm_compute; reflexivity|]; split; [eexists; split; vm_compute; reflexivity|discriminate].

(** [while (true) { try { return 4 } finally { break } }] returns 4; the jump
    should have cancelled the return. *)
Definition jump_over_return : stmt := While 2 (Try (Return (Some 4)) false None Nop true (Break None)).

Theorem C92_finally_jump_refuted : exists A s, no_closing s = true /\ differs A (function_code s) (called A) s.
Proof. exists closes, jump_over_return. split; [reflexivity|]. differ (@nil nat). Qed.

(** [try { try { return 5 } finally { throw 3 } } catch {}] returns 5; the
    throw should have cancelled the return. *)
Definition stale_return : stmt := Try (Try (Return (Some 5)) false None Nop true (Throw 3)) true None Nop false Nop.

Theorem C92_stale_return_refuted : exists A s, no_closing s = true /\ differs A (function_code s) (called A) s.
Proof. exists closes, stale_return. split; [reflexivity|]. differ (@nil nat). Qed.

(** The same with a loop whose iterator throws when it is closed:
    [try { for (x of y) return 5 } catch {}]. *)
Definition stale_loop : stmt := Try (ForOf true None 6 1 (Return (Some 5))) true None Nop false Nop.

Theorem C92_stale_close_refuted : exists A s, close_keeps A /\ steady A /\ differs A (function_code s) (called A) s.
Proof. exists close_throws, stale_loop. split; [exact throws_keeps|]. split; [exact throws_steady|]. differ (@nil nat). Qed.

(** [try { throw 3 } finally { for (x of y) break }] where closing throws: the
    new error is lost, the old one is reported. *)
Definition old_error : stmt := Try (Throw 3) false None Nop true (ForOf true None 6 1 (Break None)).

Theorem C92_old_error_refuted : exists A s, close_keeps A /\ steady A /\ differs A (function_code s) (called A) s.
Proof. exists close_throws, old_error. split; [exact throws_keeps|]. split; [exact throws_steady|]. differ (@nil nat). Qed.

(** [try { for (x of y) throw 3 } catch (e) { return e }] where the iterator's
    [return] catches an exception of its own: the clause gets undefined. *)
Definition lost_error : stmt := Try (ForOf true None 6 1 (Throw 3)) true (Some (1, 1)) (Return (Some 22)) false Nop.

Theorem C92_lost_error_refuted : exists A s, close_never_throws A /\ sound false s = true /\
  differs A (function_code s) (called A) s.
Proof.
  exists close_catches, lost_error. split; [intros it w; exact I|]. split; [vm_compute; reflexivity|]. differ (@nil nat).
Qed.

(** [try { 5; throw 3 } catch {}] has the value 5 instead of undefined. *)
Theorem C93_catch_value_refuted : exists A s, fine A s /\ differs A (eval_code s) (evaluated A) s.
Proof.
  exists closes, (Try (Seq (Expr 5) (Throw 3)) true None Nop false Nop).
  split; [left; split; vm_compute; reflexivity|]. differ (@nil nat).
Qed.

(** [L: if (c) ; else break L] is valid but rejected, and so are
    [L: try {} catch { break L }] and [L: try {} finally { break L }]. *)
Theorem C94_label_refuted : exists s1 s2 s3,
  Forall (fun s => distinct [] s = true /\ escapes s = false /\ function_code s = None /\ eval_code s = None) [s1; s2; s3].
Proof.
  exists (Labelled 1 (If 2 Semi (Break (Some 1)))),
    (Labelled 1 (Try Nop true None (Break (Some 1)) false Nop)),
    (Labelled 1 (Try Nop false None Nop true (Break (Some 1)))).
  repeat (apply Forall_cons; [repeat split; vm_compute; reflexivity|]). apply Forall_nil.
Qed.

Print Assumptions C92_function_body.
Print Assumptions C92_stack_discipline.
Print Assumptions C93_completion_value.
Print Assumptions C93_stack_discipline.
Print Assumptions C94_accepted_valid.
Print Assumptions C94_valid_accepted.
Print Assumptions C92_finally_jump_refuted.
Print Assumptions C92_stale_return_refuted.
Print Assumptions C92_stale_close_refuted.
Print Assumptions C92_old_error_refuted.
Print Assumptions C92_lost_error_refuted.
Print Assumptions C93_catch_value_refuted.
Print Assumptions C94_label_refuted.
