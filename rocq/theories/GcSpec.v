(** Reachability and what collections should do. *)
From Coq Require Import List Bool Arith ZArith.
Import ListNotations.
From Verif Require Import GcModel.

Inductive live (kids : nat -> list nat) (roots : list nat) : nat -> Prop :=
  | live_root : forall t, In t roots -> live kids roots t
  | live_kid : forall t u, live kids roots t -> In u (kids t) -> live kids roots u.

(** Every reference leads to a thing *)
Definition closed (kids : nat -> list nat) (roots things : list nat) : Prop :=
  (forall t, In t roots -> In t things) /\ (forall t u, In t things -> In u (kids t) -> In u things).
(** no marks and an empty mark stack, as at the start of the runtime *)
Definition no_marks (s : gstate) : Prop := (forall t, mk s t = false /\ sc s t = false) /\ stk s = [].

(** The strong references a program can follow: the scanned ones *)
Definition alive (m : mem) (t : nat) : Prop := live (scan_kids m) (all_roots m) t.

(** What a program may do: it only names things that exist, never resurrects freed ones *)
Definition mop_ok (m : mem) (op : mop) : Prop :=
  let ok := fun t => In t (things m) in
  match op with
  | New t => ~ ok t
  | Link l r => (forall t, In t r -> ok t) /\ (forall t u, ok t -> In u (l t) -> ok u)
  | NewRef b r => ok b /\ ok r /\ ~ In b (map fst (target m))
  | CollSet b k v => ok b /\ ok k /\ (forall x, v = Some x -> ok x)
  | CollDel _ _ => True
  | NewReg t f => ok t /\ ok f /\ ~ In t (map fst (funcs m))
  | Register r t h k => ok r /\ In r (map fst (funcs m)) /\ ok t /\ (forall x, In x (held_things h) -> ok x) /\ (forall x, k = Some x -> ok x)
  | Unregister _ _ => True
  | RunJob => True
  | Gc _ => True
  end.
(** [hist m ops m']: the operations, each allowed in its state, lead from m to m' *)
Inductive hist (m : mem) : list mop -> mem -> Prop :=
  | h_nil : hist m [] m
  | h_snoc : forall ops m1 op m2, hist m ops m1 -> mop_ok m1 op -> m_step m1 op = Some m2 -> hist m (ops ++ [op]) m2.

(** Registrations as the language sees them: pending and due callbacks.  A collection moves
    the registrations whose target is gone, in registration order. *)
Inductive settle (P : nat -> Prop) (func : nat -> option nat) : list fcb -> list fcb -> list (nat * held) -> Prop :=
  | st_nil : settle P func [] [] []
  | st_keep : forall c cs cs' js, P (f_target c) -> settle P func cs cs' js -> settle P func (c :: cs) (c :: cs') js
  | st_due : forall c f cs cs' js, ~ P (f_target c) -> func (f_reg c) = Some f -> settle P func cs cs' js ->
      settle P func (c :: cs) cs' ((f, f_held c) :: js).
Definition drop_token (r k : nat) (cs : list fcb) : list fcb := filter (fun c => negb (same_token r k c)) cs.
Inductive reg_step (m : mem) : list fcb -> mop -> list fcb -> list (nat * held) -> Prop :=
  | rs_register : forall p r t h k, same_held t h = false -> reg_step m p (Register r t h k) (p ++ [{| f_reg := r; f_target := t; f_held := h; f_token := k |}]) []
  | rs_refused : forall p r t h k, same_held t h = true -> reg_step m p (Register r t h k) p []
  | rs_unregister : forall p r k, reg_step m p (Unregister r k) (drop_token r k p) []
  | rs_gc : forall p cap p' due, settle (alive m) (func_of m) p p' due -> reg_step m p (Gc cap) p' due
  | rs_other : forall p op, match op with Register _ _ _ _ => False | Unregister _ _ => False | Gc _ => False | _ => True end -> reg_step m p op p [].
(** The unregistration token of a new registration is not in use in its registry *)
Definition fresh_token (m : mem) (op : mop) : Prop :=
  match op with Register r _ _ (Some k) => forall c, In c (cbs m) -> same_token r k c = false | _ => True end.
(** A history from the empty heap, with the registrations the language has pending at its end
    and all callbacks that became due, in order *)
Inductive reg_hist : list mop -> mem -> list fcb -> list (nat * held) -> Prop :=
  | rh_nil : reg_hist [] empty_mem [] []
  | rh_snoc : forall ops m1 p d op m2 p' due, reg_hist ops m1 p d -> mop_ok m1 op -> fresh_token m1 op -> m_step m1 op = Some m2 ->
      reg_step m1 p op p' due -> reg_hist (ops ++ [op]) m2 p' (d ++ due).
(** Reachability with ephemerons: the language also keeps the value of a weak map entry while
    the map and the key are reachable *)
Inductive elive (m : mem) : nat -> Prop :=
  | el_root : forall t, In t (all_roots m) -> elive m t
  | el_kid : forall t u, elive m t -> In u (scan_kids m t) -> elive m u
  | el_value : forall b k v, In (b, k, Some v) (coll m) -> elive m b -> elive m k -> elive m v.
