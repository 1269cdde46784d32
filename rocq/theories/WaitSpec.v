(** What wait and notify must do, stated on the log of events alone. *)
From Coq Require Import ZArith List Bool Arith.
Import ListNotations.
From Verif Require Import WaitModel.

(** The waiters of a position: those that entered, in order of arrival, without
    those that were notified or are done. *)
Definition gone (w : nat) (q : list nat) : list nat := filter (fun x => negb (x =? w)) q.
Definition arrive (pos : nat) (q : list nat) (e : event) : list nat :=
  match e with
  | EEnter _ w p _ _ => if p =? pos then q ++ [w] else q
  | ESignal _ w | EDone _ w _ => gone w q
  | _ => q
  end.
Definition queue (l : list event) (pos : nat) : list nat := fold_left (arrive pos) l [].

(** The value of a cell after [l]. *)
Definition value (m : nat -> Z) (l : list event) (pos : nat) : Z :=
  fold_left (fun x e => match e with EPoke p v => if p =? pos then v else x | _ => x end) l (m pos).

(** The waiters notified in [l], in order. *)
Fixpoint signals (l : list event) : list nat :=
  match l with [] => [] | ESignal _ w :: r => w :: signals r | _ :: r => signals r end.

(** The first [c] elements. *)
Definition take (c : option nat) (q : list nat) : list nat := match c with Some k => firstn k q | None => q end.

(** Between the start and the end of notify by [a], nobody else enters, notifies
    or leaves. *)
Definition inside_notify (a : nat) (e : event) : Prop :=
  match e with ESignal b _ => b = a | EExpire _ | ESpurious _ | EPoke _ _ => True | _ => False end.

(** notify takes the first [c] waiters present when it starts and returns their
    number. *)
Definition notify_exact (l : list event) : Prop :=
  forall l1 a pos c l2 n l3, l = l1 ++ ENotify a pos c :: l2 ++ ECount a n :: l3 ->
    (forall p d, ~ In (ENotify a p d) l2) ->
    Forall (inside_notify a) l2 /\ signals l2 = take c (queue l1 pos) /\ n = length (signals l2).

(** Each wait that is done returns "ok" if and only if it was notified, exactly
    once. *)
Definition matched (l : list event) : Prop :=
  NoDup (signals l) /\
  forall a w r, In (EDone a w r) l -> (r = ROk <-> In w (signals l)).

(** The environment woke a waiter without cause; the time of a waiter was over
    before it was notified. *)
Definition no_spurious (l : list event) : Prop := forall w, ~ In (ESpurious w) l.
Definition no_late (l : list event) : Prop := forall l1 a w l2, l = l1 ++ ESignal a w :: l2 -> ~ In (EExpire w) l1.
