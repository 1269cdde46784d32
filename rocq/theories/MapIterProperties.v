(** Property theorems for Map/Set iteration (C13). *)
From Coq Require Import List Arith Bool Lia.
Import ListNotations.
From Verif Require Import HashModel MapIterModel MapIterSpec MapIterProofs.

(** C13: for every key equivalence and consistent hash function, and for every
    interleaving of set/delete/clear/get/size operations with creation,
    stepping and abandoning of any number of iterators and forEach loops, no
    freed entry is touched and every result equals that of cursors over the
    append-only log with tombstones.  Hypothesis [quiet]: no setter for index
    0/1 is installed on Array.prototype (see the refutations below). *)
Theorem C13_map_iteration_is_log_cursor :
  forall (K V : Type) (hkey : K -> nat) (keq : K -> K -> bool),
    (forall a b, keq a b = true -> keq b a = true) ->
    (forall a b c, keq a b = true -> keq b c = true -> keq a c = true) ->
    (forall a b, keq a b = true -> hkey a = hkey b) ->
    forall ops, Forall (quiet K V) ops ->
    exists s, run K V hkey keq (mo_init K V) ops
              = Some (s, snd (srun K V keq (lo_init K V) ops)).
Proof. exact map_iteration_refines. Qed.
Print Assumptions C13_map_iteration_is_log_cursor.

(** C13, reading of the specification: a step yields the first present entry at
    or after the cursor and moves strictly past it, so no entry is yielded
    twice and none that is present is skipped. *)
Lemma seek_spec K V (l : log K V) p a :
  match seek K V l p a with
  | Some (q, k, v) => p <= q /\ a <= q /\ nth_error l (q - a) = Some (Some (k, v)) /\
                      forall r, p <= r -> a <= r -> r < q -> nth_error l (r - a) = Some None
  | None => forall r, p <= r -> a <= r -> r < a + length l -> nth_error l (r - a) = Some None
  end.
Proof.
  revert a. induction l as [|x t IH]; intros a; simpl.
  - intros; lia.
  - assert (Rec : forall (P : nat), a <= P -> forall y, nth_error t (P - S a) = y -> S a <= P ->
                  nth_error (x :: t) (P - a) = y).
    { intros P _ y Hy HP. replace (P - a) with (S (P - S a)) by lia. exact Hy. }
    destruct x as [[k v]|].
    + destruct (Nat.leb_spec p a) as [L|L].
      * rewrite Nat.sub_diag. simpl. repeat split; auto; intros; lia.
      * specialize (IH (S a)). destruct (seek K V t p (S a)) as [[[q k'] v']|].
        -- destruct IH as (A & B & C & D). split; [exact A|]. split; [lia|]. split.
           ++ apply Rec; auto; lia.
           ++ intros r H1 H2 H3. apply Rec; auto; [|lia]. apply D; lia.
        -- intros r H1 H2 H3. apply Rec; auto; [|lia]. apply IH; lia.
    + specialize (IH (S a)). destruct (seek K V t p (S a)) as [[[q k'] v']|].
      * destruct IH as (A & B & C & D). split; [exact A|]. split; [lia|]. split.
        -- apply Rec; auto; lia.
        -- intros r H1 H2 H3. destruct (Nat.eq_dec r a) as [->|N].
           ++ rewrite Nat.sub_diag. reflexivity.
           ++ apply Rec; auto; [|lia]. apply D; lia.
      * intros r H1 H2 H3. destruct (Nat.eq_dec r a) as [->|N].
        -- rewrite Nat.sub_diag. reflexivity.
        -- apply Rec; auto; [|lia]. apply IH; lia.
Qed.

Theorem C13_cursor_yields_next_present_entry :
  forall K V (s : lo K V) n gone k v s',
    advance K V s n gone = (s', OYield K V k v) ->
    exists p q, nth_error (cursors K V s) n = Some (Some (Some p)) /\
      nth_error (cursors K V s') n = Some (Some (Some (S q))) /\
      slog K V s' = slog K V s /\
      p <= q /\ nth_error (slog K V s) q = Some (Some (k, v)) /\
      forall r, p <= r < q -> nth_error (slog K V s) r = Some None.
Proof.
  intros K V s n gone k v s' H. unfold advance in H.
  destruct (nth_error (cursors K V s) n) as [[[p|]|]|] eqn:E; try discriminate.
  pose proof (seek_spec K V (slog K V s) p 0) as S.
  destruct (seek K V (slog K V s) p 0) as [[[q k'] v']|]; [|discriminate].
  injection H as <- <- <-. destruct S as (A & B & C & D). rewrite Nat.sub_0_r in C.
  exists p, q. split; [reflexivity|]. split; [|split; [reflexivity|split; [exact A|split; [exact C|]]]].
  - simpl. clear -E. revert n E. induction (cursors K V s) as [|c cs IH]; intros [|n] E;
      simpl in *; try discriminate; auto.
  - intros r Hr. specialize (D r). rewrite Nat.sub_0_r in D. apply D; lia.
Qed.
Print Assumptions C13_cursor_yields_next_present_entry.

(** Non-vacuity: two iterators and a forEach loop over a Map while entries are
    added, deleted under the cursor, cleared and re-added. *)
Definition demo_ops : list (op nat nat) :=
  [OpB _ _ (BSet _ _ 1 10); OpB _ _ (BSet _ _ 2 20); OpB _ _ (BSet _ _ 3 30);
   OpB _ _ (BNew _ _); OpB _ _ (BNew _ _);
   OpNext _ _ 0 [] []; OpB _ _ (BDelete _ _ 2); OpNext _ _ 0 [] []; OpTurn _ _ 1;
   OpB _ _ (BSet _ _ 2 21); OpNext _ _ 0 [] []; OpB _ _ (BClear _ _); OpB _ _ (BSet _ _ 4 40);
   OpTurn _ _ 1; OpNext _ _ 0 [] []; OpNext _ _ 0 [] []; OpB _ _ (BSet _ _ 5 50);
   OpNext _ _ 0 [] []; OpTurn _ _ 1; OpTurn _ _ 1; OpSize _ _; OpGet _ _ 4].
Example C13_demo_quiet : Forall (quiet nat nat) demo_ops.
Proof. repeat constructor. Qed.
Example C13_demo_run :
  option_map snd (run nat nat (fun _ => 0) Nat.eqb (mo_init nat nat) demo_ops)
  = Some [ONone _ _; ONone _ _; ONone _ _; ONone _ _; ONone _ _;
          OYield _ _ 1 10; ONone _ _; OYield _ _ 3 30; OYield _ _ 1 10;
          ONone _ _; OYield _ _ 2 21; ONone _ _; ONone _ _;
          OYield _ _ 4 40; OYield _ _ 4 40; OEnd _ _; ONone _ _;
          OEnd _ _; OYield _ _ 5 50; OEnd _ _; OSize _ _ 2; OVal _ _ (Some 40)].
Proof. vm_compute. reflexivity. Qed.

(** C13 violated: hash_iter_next builds the [key, value] pair with an ordinary
    property store, so a setter installed on Array.prototype for index 0 that
    deletes the current entry makes the engine read the value of a freed
    entry. *)
Theorem C13_setter_use_after_free_refuted :
  exists ops : list (op nat nat), run nat nat (fun _ => 0) Nat.eqb (mo_init nat nat) ops = None.
Proof.
  exists [OpB _ _ (BSet _ _ 1 10); OpB _ _ (BNew _ _); OpNext _ _ 0 [BDelete _ _ 1] []].
  vm_compute. reflexivity.
Qed.
Print Assumptions C13_setter_use_after_free_refuted.

(** C13 violated: if the setter for index 1 deletes the current entry, the
    cursor is advanced twice and a present entry is skipped. *)
Theorem C13_setter_skips_entry_refuted :
  exists (ops : list (op nat nat)) s outs,
    run nat nat (fun _ => 0) Nat.eqb (mo_init nat nat) ops = Some (s, outs) /\
    (* 2 is present throughout, yet the iterator ends after yielding 1 *)
    deref nat nat (elist nat nat s) 1 = Some (mkEnt nat nat 1 2 20) /\
    filter (fun o => match o with OYield _ _ _ _ | OEnd _ _ => true | _ => false end) outs
    = [OYield _ _ 1 10; OEnd _ _].
Proof.
  exists [OpB _ _ (BSet _ _ 1 10); OpB _ _ (BSet _ _ 2 20); OpB _ _ (BNew _ _);
          OpNext _ _ 0 [] [BDelete _ _ 1]; OpNext _ _ 0 [] []].
  vm_compute. eexists. eexists. split; [reflexivity|]. split; reflexivity.
Qed.
Print Assumptions C13_setter_skips_entry_refuted.
