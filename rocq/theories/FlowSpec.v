(** * What statements mean: completion records

    The evaluation semantics of ECMA-262 (14 Statements; 6.2.4 Completion
    Records; 7.4.11 IteratorClose), written as a function from statements to
    completions.  No byte code, stack or register appears here.  [fuel] bounds
    the rounds of each loop; [None] means some loop was cut off. *)

From Coq Require Import List Bool Arith.
From Verif Require Import FlowModel.
Import ListNotations.

Section Spec.

Variable A : world.

Local Notation W := (W A).
Local Notation V := (V A).

Inductive completion :=
| Normal (v : option V)
| Brk (t : option nat) (v : option V)
| Cont (t : option nat) (v : option V)
| Ret (v : V)
| Thr (v : V).

(** UpdateEmpty ( completion, value ). *)
Definition update_empty (c : completion) (d : option V) : completion :=
  let f v := match v with Some _ => v | None => d end in
  match c with
  | Normal v => Normal (f v)
  | Brk t v => Brk t (f v)
  | Cont t v => Cont t (f v)
  | Ret v => Ret v
  | Thr v => Thr v
  end.

(** The value of a completion, if it has one. *)
Definition value_of (c : completion) : option V :=
  match c with
  | Normal v | Brk _ v | Cont _ v => v
  | Ret v | Thr v => Some v
  end.

(** LoopContinues ( completion, labelSet ). *)
Definition loop_continues (c : completion) (ls : list nat) : bool :=
  match c with
  | Normal _ => true
  | Cont None _ => true
  | Cont (Some x) _ => existsb (Nat.eqb x) ls
  | _ => false
  end.

(** LabelledEvaluation of a BreakableStatement: a plain break ends here. *)
Definition breakable (c : completion) : completion :=
  match c with
  | Brk None v => Normal (match v with Some _ => v | None => Some (undef A) end)
  | c => c
  end.

(** The value a loop carries along. *)
Definition carry (c : completion) (v : V) : V :=
  match value_of c with Some v' => v' | None => v end.

(** IteratorClose ( iterator, completion ), for iterators that are closed. *)
Definition iterator_close (closing : bool) (it : nat) (c : completion) (w : W) : W * completion :=
  if closing then
    match w_close A it w, c with
    | (w', _, _), Thr e => (w', Thr e)
    | (w', inr e, _), _ => (w', Thr e)
    | (w', inl _, _), _ => (w', c)
    end
  else (w, c).

(** Rounds of a loop: each gives either the state for the next one or the
    completion of the loop. *)
Fixpoint rounds {B : Type} (n : nat) (turn : B -> W -> option (W * (B + completion)))
    (b : B) (w : W) : option (W * completion) :=
  match n with
  | O => None
  | S n =>
      match turn b w with
      | None => None
      | Some (w', inl b') => rounds n turn b' w'
      | Some (w', inr c) => Some (w', c)
      end
  end.

(** Continue with a value, or pass a throw on. *)
Definition ok {B R : Type} (a : ans W V B) (thr : W -> V -> R) (f : W -> B -> R) : R :=
  match a with
  | (w, inl b, _) => f w b
  | (w, inr e, _) => thr w e
  end.

Definition throws (w : W) (e : V) : option (W * completion) := Some (w, Thr e).

(** Optional scopes. *)
Definition in_scope (d : option nat) (env : list nat) (w : W) : W * list nat :=
  match d with
  | Some d => let (w', x) := w_scope A d env w in (w', x :: env)
  | None => (w, env)
  end.

(** CreatePerIterationEnvironment. *)
Definition fresh_copy (d : option nat) (env : list nat) (w : W) : W * list nat :=
  match d, env with
  | Some _, x :: t => let (w', y) := w_copy A x w in (w', y :: t)
  | _, _ => (w, env)
  end.

Definition opt_eval {R : Type} (e : option nat) (env : list nat) (w : W)
    (thr : W -> V -> R) (f : W -> option V -> R) : R :=
  match e with
  | Some e => ok (w_eval A e env w) thr (fun w v => f w (Some v))
  | None => f w None
  end.

(** The clause a switch selects, counted from the start of the list: tests in
    order, then the default clause. *)
Fixpoint default_index (cs : cases) : option nat :=
  match cs with
  | CNil => None
  | CCons None _ _ => Some 0
  | CCons (Some _) _ r => option_map S (default_index r)
  end.

Fixpoint select (v : V) (env : list nat) (cs : cases) (w : W) : W * (option nat + V) :=
  match cs with
  | CNil => (w, inl None)
  | CCons None _ r =>
      match select v env r w with
      | (w', inl o) => (w', inl (option_map S o))
      | (w', inr e) => (w', inr e)
      end
  | CCons (Some e) _ r =>
      ok (w_eval A e env w) (fun w e => (w, inr e))
        (fun w x =>
           if same A v x then (w, inl (Some 0))
           else match select v env r w with
                | (w', inl o) => (w', inl (option_map S o))
                | (w', inr e) => (w', inr e)
                end)
  end.

Fixpoint exec (fuel : nat) (env : list nat) (ls : list nat) (s : stmt) (w : W) {struct s}
  : option (W * completion) :=
  match s with
  | Nop | Semi => Some (w, Normal None)
  | Expr e => ok (w_eval A e env w) throws (fun w v => Some (w, Normal (Some v)))
  | Do e => ok (w_eval A e env w) throws (fun w _ => Some (w, Normal None))
  | Seq s1 s2 =>
      match exec fuel env [] s1 w with
      | Some (w1, Normal v) =>
          match exec fuel env [] s2 w1 with
          | Some (w2, c) => Some (w2, update_empty c v)
          | None => None
          end
      | r => r
      end
  | Block _ Nop => Some (w, Normal None)
  | Block d s => let (w1, x) := w_scope A d env w in exec fuel (x :: env) [] s w1
  | If e s1 s2 =>
      ok (w_eval A e env w) throws (fun w v =>
        match exec fuel env [] (if truthy A v then s1 else s2) w with
        | Some (w', c) => Some (w', update_empty c (Some (undef A)))
        | None => None
        end)
  | DoWhile s e =>
      match rounds fuel (fun v w =>
              match exec fuel env [] s w with
              | None => None
              | Some (w1, c) =>
                  if loop_continues c ls then
                    ok (w_eval A e env w1) (fun w e => Some (w, inr (Thr e)))
                      (fun w x => Some (w, if truthy A x then inl (carry c v)
                                           else inr (Normal (Some (carry c v)))))
                  else Some (w1, inr (update_empty c (Some v)))
              end) (undef A) w with
      | Some (w', c) => Some (w', breakable c)
      | None => None
      end
  | While e s =>
      match rounds fuel (fun v w =>
              ok (w_eval A e env w) (fun w e => Some (w, inr (Thr e)))
                (fun w x =>
                   if truthy A x then
                     match exec fuel env [] s w with
                     | None => None
                     | Some (w1, c) =>
                         Some (w1, if loop_continues c ls then inl (carry c v)
                                   else inr (update_empty c (Some v)))
                     end
                   else Some (w, inr (Normal (Some v))))) (undef A) w with
      | Some (w', c) => Some (w', breakable c)
      | None => None
      end
  | For d init test step s =>
      let (w0, env0) := in_scope d env w in
      opt_eval init env0 w0 throws (fun w1 _ =>
        let (w2, env1) := fresh_copy d env0 w1 in
        match rounds fuel (fun (b : V * list nat) w =>
                let (v, env) := b in
                opt_eval test env w (fun w e => Some (w, inr (Thr e)))
                  (fun w x =>
                     if match x with Some x => truthy A x | None => true end then
                       match exec fuel env [] s w with
                       | None => None
                       | Some (w1, c) =>
                           if loop_continues c ls then
                             let (w2, env') := fresh_copy d env w1 in
                             opt_eval step env' w2 (fun w e => Some (w, inr (Thr e)))
                               (fun w _ => Some (w, inl (carry c v, env')))
                           else Some (w1, inr (update_empty c (Some v)))
                       end
                     else Some (w, inr (Normal (Some v))))) (undef A, env1) w2 with
        | Some (w', c) => Some (w', breakable c)
        | None => None
        end)
  | ForOf closing d e b s =>
      let (w0, envh) := in_scope d env w in
      ok (w_eval A e envh w0) throws (fun w1 x =>
        ok (w_open A closing x w1) throws (fun w2 it =>
          match rounds fuel (fun v w =>
                  ok (w_next A it w) (fun w e => Some (w, inr (Thr e)))
                    (fun w o =>
                       match o with
                       | None => Some (w, inr (Normal (Some v)))
                       | Some x =>
                           let (w3, env3) := in_scope d env w in
                           ok (w_bind A b x env3 w3)
                             (fun w e => let (w', c) := iterator_close closing it (Thr e) w in
                                         Some (w', inr c))
                             (fun w _ =>
                                match exec fuel env3 [] s w with
                                | None => None
                                | Some (w4, c) =>
                                    if loop_continues c ls then Some (w4, inl (carry c v))
                                    else
                                      let (w5, c') := iterator_close closing it
                                                        (update_empty c (Some v)) w4 in
                                      Some (w5, inr c')
                                end)
                       end)) (undef A) w2 with
          | Some (w', c) => Some (w', breakable c)
          | None => None
          end))
  | Switch d e cs =>
      ok (w_eval A e env w) throws (fun w1 v =>
        let (w2, env') := in_scope d env w1 in
        match select v env' cs w2 with
        | (w3, inr e) => Some (w3, Thr e)
        | (w3, inl o) =>
            match (match o with Some i => Some i | None => default_index cs end) with
            | None => Some (w3, Normal (Some (undef A)))
            | Some i =>
                match exec_cases fuel env' cs i (undef A) w3 with
                | Some (w', c) => Some (w', breakable c)
                | None => None
                end
            end
        end)
  | With e d s =>
      ok (w_eval A e env w) throws (fun w1 v =>
        ok (w_with A d v env w1) throws (fun w2 x =>
          match exec fuel (x :: env) [] s w2 with
          | Some (w', c) => Some (w', update_empty c (Some (undef A)))
          | None => None
          end))
  | Labelled x s =>
      match exec fuel env (x :: ls) s w with
      | Some (w', Brk (Some y) v) =>
          Some (w', if Nat.eqb x y then Normal v else Brk (Some y) v)
      | r => r
      end
  | Break t => Some (w, Brk t None)
  | Continue t => Some (w, Cont t None)
  | Return e =>
      opt_eval e env w throws (fun w v => Some (w, Ret (match v with Some v => v | None => undef A end)))
  | Throw e => ok (w_eval A e env w) throws (fun w v => Some (w, Thr v))
  | Try b hc p c hf f =>
      let handled :=
        match exec fuel env [] b w with
        | Some (w1, Thr x) =>
            if hc then
              match p with
              | Some (d, bd) =>
                  let (w2, y) := w_scope A d env w1 in
                  ok (w_bind A bd x (y :: env) w2) throws (fun w3 _ => exec fuel (y :: env) [] c w3)
              | None => exec fuel env [] c w1
              end
            else Some (w1, Thr x)
        | r => r
        end in
      match handled with
      | None => None
      | Some (w1, c1) =>
          if hf then
            match exec fuel env [] f w1 with
            | None => None
            | Some (w2, Normal _) => Some (w2, update_empty c1 (Some (undef A)))
            | Some (w2, c2) => Some (w2, update_empty c2 (Some (undef A)))
            end
          else Some (w1, update_empty c1 (Some (undef A)))
      end
  end
(** CaseBlockEvaluation from clause [i] on. *)
with exec_cases (fuel : nat) (env : list nat) (cs : cases) (i : nat) (v : V) (w : W) {struct cs}
  : option (W * completion) :=
  match cs with
  | CNil => Some (w, Normal (Some v))
  | CCons _ s r =>
      match i with
      | S i => exec_cases fuel env r i v w
      | O =>
          match exec fuel env [] s w with
          | Some (w1, Normal v1) =>
              exec_cases fuel env r 0 (match v1 with Some x => x | None => v end) w1
          | Some (w1, c) => Some (w1, update_empty c (Some v))
          | None => None
          end
      end
  end.

(** What calling a function with this body, or evaluating this script, gives:
    a value or a thrown value.  Jumps without target cannot be left over in
    code that was accepted. *)
Definition called (c : completion) : option (V + V) :=
  match c with
  | Normal _ => Some (inl (undef A))
  | Ret v => Some (inl v)
  | Thr e => Some (inr e)
  | _ => None
  end.

Definition evaluated (c : completion) : option (V + V) :=
  match c with
  | Normal v => Some (inl (match v with Some v => v | None => undef A end))
  | Ret v => Some (inl v)
  | Thr e => Some (inr e)
  | _ => None
  end.

(** ** Conditions on programs *)

(** Jumps that leave a statement: [false] for break, [true] for continue. *)
Definition mine (ls : list nat) (j : bool * option nat) : bool :=
  match j with
  | (false, None) | (true, None) => true
  | (true, Some x) => existsb (Nat.eqb x) ls
  | (false, Some _) => false
  end.

Fixpoint jumps (ls : list nat) (s : stmt) : list (bool * option nat) :=
  match s with
  | Seq a b => jumps [] a ++ jumps [] b
  | Block _ s | With _ _ s => jumps [] s
  | If _ a b => jumps [] a ++ jumps [] b
  | DoWhile s _ | While _ s | For _ _ _ _ s | ForOf _ _ _ _ s =>
      filter (fun j => negb (mine ls j)) (jumps [] s)
  | Switch _ _ cs =>
      filter (fun j => negb (match j with (false, None) => true | _ => false end)) (jumps_cases cs)
  | Labelled x s =>
      filter (fun j => negb (match j with (false, Some y) => Nat.eqb x y | _ => false end))
             (jumps (x :: ls) s)
  | Break t => [(false, t)]
  | Continue t => [(true, t)]
  | Try b hc _ c hf f =>
      jumps [] b ++ (if hc then jumps [] c else []) ++ (if hf then jumps [] f else [])
  | _ => []
  end
with jumps_cases (cs : cases) : list (bool * option nat) :=
  match cs with
  | CNil => []
  | CCons _ s r => jumps [] s ++ jumps_cases r
  end.

Definition escapes (s : stmt) : bool := match jumps [] s with [] => false | _ => true end.

(** A property of every direct part of a statement. *)
Fixpoint every (f : stmt -> bool) (s : stmt) : bool :=
  f s &&
  match s with
  | Seq a b | If _ a b => every f a && every f b
  | Block _ s | With _ _ s | Labelled _ s => every f s
  | DoWhile s _ | While _ s | For _ _ _ _ s | ForOf _ _ _ _ s => every f s
  | Switch _ _ cs => every_case f cs
  | Try b hc _ c hf g => every f b && (if hc then every f c else true) && (if hf then every f g else true)
  | _ => true
  end
with every_case (f : stmt -> bool) (cs : cases) : bool :=
  match cs with
  | CNil => true
  | CCons _ s r => every f s && every_case f r
  end.

(** No return statement inside. *)
Definition no_return : stmt -> bool :=
  every (fun s => match s with Return _ => false | _ => true end).

(** No loop inside that closes its iterator. *)
Definition no_closing : stmt -> bool :=
  every (fun s => match s with ForOf true _ _ _ _ => false | _ => true end).

(** No catch clause inside. *)
Definition no_catch : stmt -> bool :=
  every (fun s => match s with Try _ hc _ _ _ _ => negb hc | _ => true end).

(** [q]: closing an iterator cannot throw.  A pending return is never replaced
    by a throw inside. *)
Definition returns_last (q : bool) : stmt -> bool :=
  every (fun s =>
    match s with
    | ForOf true _ _ _ b => q || no_return b
    | Try b hc _ c true _ => no_return b && (if hc then no_return c else true)
    | _ => true
    end).

(** The conditions under which finally blocks and iterator closing work:
    - a finally block is left by a jump only if the protected blocks do not
      return;
    - jumps and returns that leave a finally block, and loops over iterators
      inside it, need closing not to throw;
    - what a catch clause catches has not replaced a pending return. *)
Definition sound (q : bool) : stmt -> bool :=
  every (fun s =>
    match s with
    | Try b hc _ c hf f =>
        (if hf then
           (q || (no_closing f && negb (escapes f) && no_return f))
           && (negb (escapes f) || (no_return b && (if hc then no_return c else true)))
         else true)
        && (if hc then returns_last q b else true)
    | _ => true
    end).

(** Early errors the parser reports for labels: a label is not repeated inside
    its own statement. *)
Fixpoint distinct (seen : list nat) (s : stmt) : bool :=
  match s with
  | Seq a b | If _ a b => distinct seen a && distinct seen b
  | Block _ s | With _ _ s => distinct seen s
  | DoWhile s _ | While _ s | For _ _ _ _ s | ForOf _ _ _ _ s => distinct seen s
  | Switch _ _ cs => distinct_cases seen cs
  | Labelled x s => negb (existsb (Nat.eqb x) seen) && distinct (x :: seen) s
  | Try b hc _ c hf f =>
      distinct seen b && (if hc then distinct seen c else true) && (if hf then distinct seen f else true)
  | _ => true
  end
with distinct_cases (seen : list nat) (cs : cases) : bool :=
  match cs with
  | CNil => true
  | CCons _ s r => distinct seen s && distinct_cases seen r
  end.

(** ** Conditions on the world *)

(** Code that ends normally does not leave the error flag set. *)
Definition no_leak {B : Type} (a : ans W V B) : Prop :=
  match a with (_, inl _, Some (f, _)) => f = false | _ => True end.

Definition steady : Prop :=
  (forall e env w, no_leak (w_eval A e env w)) /\
  (forall b v env w, no_leak (w_bind A b v env w)) /\
  (forall d v env w, no_leak (w_with A d v env w)) /\
  (forall c v w, no_leak (w_open A c v w)) /\
  (forall it w, no_leak (w_next A it w)).

(** Closing an iterator does not touch the error register unless it throws:
    no [return] method catches an exception inside. *)
Definition close_keeps : Prop :=
  forall it w, match w_close A it w with (_, inl _, x) => x = None | _ => True end.

Definition close_never_throws : Prop :=
  forall it w, match w_close A it w with (_, inr _, _) => False | _ => True end.

(** When the interpreter does what the standard says: no loop closes its
    iterator and finally blocks are not left by jumps over a return; or
    closing does not touch the error register and either never throws, or all
    other operations keep the register clean and finally blocks hold no
    closing, jump or return. *)
Definition fine (s : stmt) : Prop :=
  (no_closing s = true /\ sound true s = true) \/
  (close_keeps /\
   ((close_never_throws /\ sound true s = true) \/ (steady /\ sound false s = true))).

End Spec.

(** ** Early errors for jumps *)

(** A jump at its own statement: a break to one of the labels in front. *)
Definition to_label (ls : list nat) (j : bool * option nat) : bool :=
  match j with (false, Some x) => existsb (Nat.eqb x) ls | _ => false end.

(** No break goes from the second branch of an if statement, or from a catch
    clause or finally block, to a label of that very statement. *)
Fixpoint heard (ls : list nat) (s : stmt) : bool :=
  let none s := forallb (fun j => negb (to_label ls j)) (jumps [] s) in
  match s with
  | Seq a b => heard [] a && heard [] b && none a && none b
  | If _ a b => heard [] a && heard [] b && none b
  | Block _ s | With _ _ s | DoWhile s _ | While _ s | For _ _ _ _ s | ForOf _ _ _ _ s => heard [] s
  | Switch _ _ cs => heard_cases cs
  | Labelled x s => heard (x :: ls) s
  | Try b hc _ c hf f =>
      heard [] b && (if hc then heard [] c && none c else true) && (if hf then heard [] f && none f else true)
  | _ => true
  end
with heard_cases (cs : cases) : bool :=
  match cs with
  | CNil => true
  | CCons _ s r => heard [] s && heard_cases r
  end.
