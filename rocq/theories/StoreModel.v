(** Model of the indexed property storage of objects: prop_rbt_set_vec, prop_rbt_to_vec,
    prop_vec_to_rbt, prop_lookup, update_array_item_max, prop_array_fixup, prop_add and
    prop_delete, src/lib/rjs_object.c:107-449 and rjs_ordinary_object_delete_from_index,
    1264-1317.
    Simplifications: the red/black tree is the list of its nodes in order, searched and
    changed as a search tree would be (the balancing is modelled in the Rbt files); a slot
    with RJS_PROP_ATTR_DELETED is [None]; allocation succeeds.  [SUB] marks a null or
    out-of-range access. *)
From Coq Require Import ZArith List Bool.
Import ListNotations.
From Verif Require Import StrModel.
Local Open Scope Z_scope.

(** Values up to SameValue: undefined, integral numbers, anything else *)
Inductive val := Undef | Num (n : Z) | Other (x : Z).
Definition val_eqb (a b : val) : bool :=
  match a, b with
  | Undef, Undef => true
  | Num x, Num y => x =? y
  | Other x, Other y => x =? y
  | _, _ => false
  end.

(** RJS_Property, src/lib/include/rjs_object.h:44-53.  The union is split into its two
    variants; both members of an accessor are always written before they are read. *)
Record prop := { acc : bool; wr : bool; en : bool; cf : bool; pval : val; pget : val; pset : val }.

Definition u32 (x : Z) : Z := x mod 2 ^ 32.

(** The tree: nodes in order *)
Definition tree := list (Z * prop).
Fixpoint t_find (t : tree) (i : Z) : option prop :=
  match t with [] => None | (j, q) :: r => if j =? i then Some q else t_find r i end.
(** descent of prop_add: equal keys go right *)
Fixpoint t_insert (t : tree) (i : Z) (p : prop) : tree :=
  match t with
  | [] => [(i, p)]
  | (j, q) :: r => if i <? j then (i, p) :: (j, q) :: r else (j, q) :: t_insert r i p
  end.
Fixpoint t_update (t : tree) (i : Z) (p : prop) : tree :=
  match t with [] => [] | (j, q) :: r => if j =? i then (j, p) :: r else (j, q) :: t_update r i p end.
Fixpoint t_remove (t : tree) (i : Z) : tree :=
  match t with [] => [] | (j, q) :: r => if j =? i then r else (j, q) :: t_remove r i end.
Fixpoint t_last (t : tree) : option (Z * prop) :=
  match t with [] => None | [x] => Some x | _ :: r => t_last r end.

(** The vector; [None] = DELETED slot *)
Definition slot := option prop.
Fixpoint set_nth (l : list slot) (n : nat) (x : slot) : list slot :=
  match l, n with
  | [], _ => []
  | _ :: r, O => x :: r
  | a :: r, S n' => a :: set_nth r n' x
  end.
(** the live slots, in order, as nodes *)
Fixpoint entries (k : Z) (l : list slot) : tree :=
  match l with
  | [] => []
  | None :: r => entries (k + 1) r
  | Some p :: r => (k, p) :: entries (k + 1) r
  end.

(** [Vec None]: prop_array.vec is NULL *)
Inductive items := Vec (v : option (list slot)) | Tree (t : tree).
Record store := { its : items; num : Z; maxi : Z; cap : Z }.
(** rjs_object_init, lines 1339-1343 *)
Definition empty_store : store := {| its := Vec None; num := 0; maxi := 0; cap := 0 |}.

(** prop_rbt_to_vec and prop_rbt_set_vec, lines 107-147 *)
Definition tree_to_vec (t : tree) (n : Z) : option (list slot) :=
  match t with
  | [] => None
  | _ => Some (fold_left (fun v e => if fst e <? n then set_nth v (Z.to_nat (fst e)) (Some (snd e)) else v)
                         t (repeat None (Z.to_nat n)))
  end.
(** prop_vec_to_rbt, lines 149-191: slots 0..max are read *)
Definition vec_to_tree (v : option (list slot)) (max : Z) : sres tree :=
  match v with
  | None => SOk []
  | Some l => if max <? Z.of_nat (length l)
              then SOk (entries 0 (firstn (Z.to_nat (max + 1)) l)) else SUB
  end.

(** prop_lookup, lines 231-263 *)
Definition s_lookup (s : store) (i : Z) : sres (option prop) :=
  match its s with
  | Tree t => SOk (t_find t i)
  | Vec v =>
      if cap s =? 0 then SOk None
      else if maxi s <? i then SOk None
      else match v with
           | None => SUB
           | Some l => match nth_error l (Z.to_nat i) with None => SUB | Some x => SOk x end
           end
  end.

(** update_array_item_max, lines 281-309 *)
Fixpoint scan_down (l : list slot) (m : nat) : sres Z :=
  match m with
  | O => SOk 0
  | S m' => match nth_error l m with
            | None => SUB
            | Some (Some _) => SOk (Z.of_nat m)
            | Some None => scan_down l m'
            end
  end.
Definition update_max (it : items) (max : Z) : sres Z :=
  match it with
  | Tree t => SOk (match t_last t with Some (i, _) => i | None => 0 end)
  | Vec None => if 0 <? max then SUB else SOk max
  | Vec (Some l) => scan_down l (Z.to_nat max)
  end.

(** prop_array_fixup, lines 312-357; [s] holds the old number and maximum *)
Definition fixup (s : store) (n max : Z) : sres store :=
  match its s with
  | Vec v =>
      if (u32 (n * 4) <? max) && (16 <? max) then
        do t <- vec_to_tree v (maxi s);
        SOk {| its := Tree t; num := n; maxi := max; cap := cap s |}
      else if cap s <=? max then
        let nlen := Z.min (Z.max (Z.max (u32 (max + 1)) (u32 (cap s * 2))) 8) 0xffffffff in
        let old := match v with None => [] | Some l => l end in
        SOk {| its := Vec (Some (firstn (Z.to_nat nlen) old ++ repeat None (Z.to_nat (nlen - cap s))));
               num := n; maxi := max; cap := nlen |}
      else SOk {| its := Vec v; num := n; maxi := max; cap := cap s |}
  | Tree t =>
      if max <? u32 (n * 3) then
        SOk {| its := Vec (tree_to_vec t (u32 (max + 1))); num := n; maxi := max; cap := u32 (max + 1) |}
      else SOk {| its := Tree t; num := n; maxi := max; cap := cap s |}
  end.

(** writing a slot of the vector *)
Definition write_slot (v : option (list slot)) (i : Z) (x : slot) : sres items :=
  match v with
  | None => SUB
  | Some l => if i <? Z.of_nat (length l) then SOk (Vec (Some (set_nth l (Z.to_nat i) x))) else SUB
  end.
Definition with_items (s : store) (it : items) : store :=
  {| its := it; num := num s; maxi := maxi s; cap := cap s |}.

(** prop_add for an index, lines 366-401, and the assignment of the new property by its
    caller validate_and_apply_property, lines 722-753 *)
Definition s_add (s : store) (i : Z) (p : prop) : sres store :=
  do s1 <- fixup s (u32 (num s + 1)) (Z.max i (maxi s));
  match its s1 with
  | Tree t => SOk (with_items s1 (Tree (t_insert t i p)))
  | Vec v => do it <- write_slot v i (Some p); SOk (with_items s1 it)
  end.

(** assignment through the pointer returned by prop_lookup (lines 783-851) *)
Definition s_update (s : store) (i : Z) (p : prop) : sres store :=
  match its s with
  | Tree t => match t_find t i with None => SUB | Some _ => SOk (with_items s (Tree (t_update t i p))) end
  | Vec v => do it <- write_slot v i (Some p); SOk (with_items s it)
  end.

(** prop_delete for an index, lines 422-452 *)
Definition s_delete (s : store) (i : Z) : sres store :=
  do it <- match its s with
           | Tree t => match t_find t i with None => SUB | Some _ => SOk (Tree (t_remove t i)) end
           | Vec v => write_slot v i None
           end;
  do m <- (if i =? maxi s then update_max it (maxi s) else SOk (maxi s));
  fixup {| its := it; num := num s; maxi := m; cap := cap s |} (u32 (num s - 1)) m.

(** rjs_ordinary_object_delete_from_index, lines 1264-1317.  Tree: the last node is removed
    as long as its index is >= new_len and it is configurable. *)
Fixpoint t_cut (fuel : nat) (t : tree) (new_len : Z) (n : Z) : sres (tree * Z * option Z) :=
  match fuel with
  | O => SUB
  | S fuel' =>
      match t_last t with
      | None => SOk (t, n, None)
      | Some (i, p) =>
          if i <? new_len then SOk (t, n, None)
          else if negb (cf p) then SOk (t, n, Some i)
          else t_cut fuel' (removelast t) new_len (n + 1)
      end
  end.
(** Vector: slots max down to new_len *)
Fixpoint v_cut (l : list slot) (i : nat) (new_len : Z) (n : Z) : sres (list slot * Z * option Z) :=
  if Z.of_nat i <? new_len then SOk (l, n, None)
  else
    match nth_error l i with
    | None => SUB
    | Some None => match i with O => SOk (l, n, None) | S i' => v_cut l i' new_len n end
    | Some (Some p) =>
        if negb (cf p) then SOk (l, n, Some (Z.of_nat i))
        else match i with
             | O => SOk (set_nth l i None, n + 1, None)
             | S i' => v_cut (set_nth l i None) i' new_len (n + 1)
             end
    end.
(** the result: storage and the index that could not be deleted *)
Definition s_cut (s : store) (new_len : Z) : sres (store * option Z) :=
  do r <- match its s with
          | Tree t => do x <- t_cut (S (length t)) t new_len 0; let '(t', n, b) := x in SOk (Tree t', n, b)
          | Vec None => SOk (Vec None, 0, None)
          | Vec (Some l) => do x <- v_cut l (Z.to_nat (maxi s)) new_len 0; let '(l', n, b) := x in SOk (Vec (Some l'), n, b)
          end;
  let '(it, n, b) := r in
  do m <- update_max it (maxi s);
  do s' <- fixup {| its := it; num := num s; maxi := m; cap := cap s |} (u32 (num s - n)) m;
  SOk (s', b).
