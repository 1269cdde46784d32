(** Specification of Map/Set iteration: an append-only log whose deleted
    entries become tombstones, and cursors that are positions in the log. *)
From Coq Require Import List Arith Bool.
Import ListNotations.
From Verif Require Import MapIterModel.

Section Spec.
  Variables K V : Type.
  Variable keq : K -> K -> bool.

  (** Log entry: [None] once deleted. *)
  Definition log := list (option (K * V)).

  (** A cursor: position, or [None] once it has reported the end. *)
  Record lo := mkLo { slog : log; cursors : list (option (option nat)) }.

  Definition lo_init : lo := mkLo [] [].

  Definition is_key (k : K) (x : option (K * V)) : bool :=
    match x with Some (k', _) => keq k' k | None => false end.

  Definition lget (l : log) (k : K) : option V :=
    match find (is_key k) l with Some (Some (_, v)) => Some v | _ => None end.

  Definition lset (l : log) (k : K) (v : V) : log :=
    match find (is_key k) l with
    | Some _ => map (fun x => match x with
                              | Some (k', v') => if keq k' k then Some (k', v) else x
                              | None => None
                              end) l
    | None => l ++ [Some (k, v)]
    end.

  Definition ldel (l : log) (k : K) : log :=
    map (fun x => if is_key k x then None else x) l.

  Definition lclear (l : log) : log := map (fun _ => None) l.

  Definition lsize (l : log) : nat :=
    length (filter (fun x => match x with Some _ => true | None => false end) l).

  (** First present entry at or after position [p]: its position and content. *)
  Fixpoint seek (l : log) (p : nat) (at_ : nat) : option (nat * K * V) :=
    match l with
    | [] => None
    | x :: t =>
      match x with
      | Some (k, v) => if p <=? at_ then Some (at_, k, v) else seek t p (S at_)
      | None => seek t p (S at_)
      end
    end.

  Definition sbstep (s : lo) (b : bop K V) : lo :=
    match b with
    | BSet _ _ k v => mkLo (lset (slog s) k v) (cursors s)
    | BDelete _ _ k => mkLo (ldel (slog s) k) (cursors s)
    | BClear _ _ => mkLo (lclear (slog s)) (cursors s)
    | BNew _ _ => mkLo (slog s) (cursors s ++ [Some (Some 0)])
    end.

  Definition set_cur (s : lo) (n : nat) (c : option (option nat)) : lo :=
    mkLo (slog s) (set_nth (cursors s) n c).

  (** Advance cursor [n]; [gone] says whether an exhausted cursor disappears
      (forEach) or stays exhausted (iterator object). *)
  Definition advance (s : lo) (n : nat) (gone : bool) : lo * out K V :=
    match nth_error (cursors s) n with
    | Some (Some (Some p)) =>
      match seek (slog s) p 0 with
      | Some (q, k, v) => (set_cur s n (Some (Some (S q))), OYield K V k v)
      | None => (set_cur s n (if gone then None else Some None), OEnd K V)
      end
    | Some (Some None) => (set_cur s n (if gone then None else Some None), OEnd K V)
    | _ => (s, ONone K V)
    end.

  Definition sstep (s : lo) (o : op K V) : lo * out K V :=
    match o with
    | OpB _ _ b => (sbstep s b, ONone K V)
    | OpGet _ _ k => (s, OVal K V (lget (slog s) k))
    | OpSize _ _ => (s, OSize K V (lsize (slog s)))
    | OpNext _ _ n _ _ => advance s n false
    | OpTurn _ _ n => advance s n true
    | OpDrop _ _ n => (set_cur s n None, ONone K V)
    end.

  Fixpoint srun (s : lo) (l : list (op K V)) : lo * list (out K V) :=
    match l with
    | [] => (s, [])
    | o :: t => let '(s', x) := sstep s o in
                let '(s'', xs) := srun s' t in (s'', x :: xs)
    end.

  (** No setter of Array.prototype intervenes while a key/value pair is built. *)
  Definition quiet (o : op K V) : Prop :=
    match o with OpNext _ _ _ m1 m2 => m1 = [] /\ m2 = [] | _ => True end.
End Spec.
