(** Model of src/lib/rjs_rbt.c:28-490, of rjs_rbt_link (src/lib/include/rjs_rbt.h:74-80) and of
    the searches of src/lib/rjs_object.c:148-191 (prop_vec_to_rbt), 238-250 (prop_lookup),
    370-395 (prop_add), 424-442 (prop_delete) and 1273-1300.
    Nodes live at addresses, 0 is NULL; the word parent_color is split into the parent and
    the colour bit (nodes are aligned, so the two do not overlap).  Reading or writing a
    field of an address without a node, and using the word of a black node as a pointer, is
    undefined ([None]).  Loops have fuel, running out of it is also [None]: the theorems show
    that it does not happen. *)
From Coq Require Import List Bool Arith ZArith.
Import ListNotations.

Record node := { lf : nat; rg : nat; pa : nat; bl : bool }.
Definition memory := nat -> option node.
Record heap := { mem : memory; root : nat }.

Definition upd (m : memory) (a : nat) (n : option node) : memory := fun x => if x =? a then n else m x.
Definition bind {A B} (x : option A) (f : A -> option B) : option B := match x with Some a => f a | None => None end.
Notation "'let*' x := e 'in' k" := (bind e (fun x => k)) (at level 200, x pattern, e at level 100, k at level 200).

(** field accesses *)
Definition left (h : heap) (a : nat) : option nat := option_map lf (mem h a).
Definition right (h : heap) (a : nat) : option nat := option_map rg (mem h a).
Definition parent (h : heap) (a : nat) : option nat := option_map pa (mem h a).       (* rbt_pc_get_parent *)
Definition black (h : heap) (a : nat) : option bool := option_map bl (mem h a).       (* rbt_is_black *)
(** rbt_red_pc_get_parent, lines 75-79 *)
Definition red_parent (h : heap) (a : nat) : option nat :=
  match mem h a with Some n => if bl n then None else Some (pa n) | None => None end.
Definition set_left (h : heap) (a v : nat) : option heap :=
  match mem h a with Some n => Some {| mem := upd (mem h) a (Some {| lf := v; rg := rg n; pa := pa n; bl := bl n |}); root := root h |} | None => None end.
Definition set_right (h : heap) (a v : nat) : option heap :=
  match mem h a with Some n => Some {| mem := upd (mem h) a (Some {| lf := lf n; rg := v; pa := pa n; bl := bl n |}); root := root h |} | None => None end.
(** rbt_set_black, lines 82-86 *)
Definition set_black (h : heap) (a : nat) : option heap :=
  match mem h a with Some n => Some {| mem := upd (mem h) a (Some {| lf := lf n; rg := rg n; pa := pa n; bl := true |}); root := root h |} | None => None end.
(** rbt_set_parent, lines 89-93 *)
Definition set_parent (h : heap) (a p : nat) : option heap :=
  match mem h a with Some n => Some {| mem := upd (mem h) a (Some {| lf := lf n; rg := rg n; pa := p; bl := bl n |}); root := root h |} | None => None end.
(** rbt_set_parent_color, lines 96-100; also n->parent_color = pc *)
Definition set_pc (h : heap) (a p : nat) (c : bool) : option heap :=
  match mem h a with Some n => Some {| mem := upd (mem h) a (Some {| lf := lf n; rg := rg n; pa := p; bl := c |}); root := root h |} | None => None end.
(** if (t) rbt_set_parent_color(t, p, c) *)
Definition set_pc_if (h : heap) (a p : nat) (c : bool) : option heap := if a =? 0 then Some h else set_pc h a p c.
Definition set_parent_if (h : heap) (a p : nat) : option heap := if a =? 0 then Some h else set_parent h a p.
Definition RED := false.
Definition BLACK := true.

(** rbt_change_child, lines 103-114 *)
Definition change_child (h : heap) (old new p : nat) : option heap :=
  if p =? 0 then Some {| mem := mem h; root := new |}
  else let* l := left h p in if l =? old then set_left h p new else set_right h p new.
(** rbt_rotate_set_parents, lines 117-129 *)
Definition rotate_set_parents (h : heap) (old new : nat) (c : bool) : option heap :=
  let* p := parent h old in
  let* b := black h old in
  let* h := set_pc h new p b in
  let* h := set_pc h old new c in
  change_child h old new p.

(** t && rbt_is_red(t) *)
Definition is_red_node (h : heap) (t : nat) : option bool :=
  if t =? 0 then Some false else option_map negb (black h t).
(** !t || rbt_is_black(t) *)
Definition is_black_or_null (h : heap) (t : nat) : option bool :=
  if t =? 0 then Some true else black h t.

(** rjs_rbt_insert, lines 232-321 *)
Fixpoint insert_loop (fuel : nat) (h : heap) (n p : nat) : option heap :=
  match fuel with
  | O => None
  | S f =>
      if p =? 0 then set_pc h n 0 BLACK
      else
        let* pb := black h p in
        if pb : bool then Some h
        else
          let* gp := red_parent h p in
          let* t := right h gp in
          if negb (p =? t) then
            let* tr := is_red_node h t in
            if tr : bool then
              let* h := set_pc h t gp BLACK in
              let* h := set_pc h p gp BLACK in
              let* p' := parent h gp in
              let* h := set_pc h gp p' RED in
              insert_loop f h gp p'
            else
              let* t := right h p in
              let* (h, p, t) :=
                (if n =? t then
                   let* t := left h n in
                   let* h := set_right h p t in
                   let* h := set_left h n p in
                   let* h := set_pc_if h t p BLACK in
                   let* h := set_pc h p n RED in
                   let* t := right h n in
                   Some (h, n, t)
                 else Some (h, p, t)) in
              let* h := set_left h gp t in
              let* h := set_right h p gp in
              let* h := set_pc_if h t gp BLACK in
              rotate_set_parents h gp p RED
          else
            let* t := left h gp in
            let* tr := is_red_node h t in
            if tr : bool then
              let* h := set_pc h t gp BLACK in
              let* h := set_pc h p gp BLACK in
              let* p' := parent h gp in
              let* h := set_pc h gp p' RED in
              insert_loop f h gp p'
            else
              let* t := left h p in
              let* (h, p, t) :=
                (if n =? t then
                   let* t := right h n in
                   let* h := set_left h p t in
                   let* h := set_right h n p in
                   let* h := set_pc_if h t p BLACK in
                   let* h := set_pc h p n RED in
                   let* t := left h n in
                   Some (h, n, t)
                 else Some (h, p, t)) in
              let* h := set_right h gp t in
              let* h := set_left h p gp in
              let* h := set_pc_if h t gp BLACK in
              rotate_set_parents h gp p RED
  end.
Definition rbt_insert (fuel : nat) (h : heap) (n : nat) : option heap :=
  let* p := red_parent h n in insert_loop fuel h n p.

(** rbt_fixup, lines 324-416 *)
Fixpoint fixup_loop (fuel : nat) (h : heap) (n p : nat) : option heap :=
  match fuel with
  | O => None
  | S f =>
      let* s := right h p in
      if negb (n =? s) then
        let* sb := black h s in
        let* (h, s) :=
          (if negb sb then
             let* t1 := left h s in
             let* h := set_right h p t1 in
             let* h := set_left h s p in
             let* h := set_pc h t1 p BLACK in
             let* h := rotate_set_parents h p s RED in
             Some (h, t1)
           else Some (h, s)) in
        let* t1 := right h s in
        let* t1b := is_black_or_null h t1 in
        if t1b : bool then
          let* t2 := left h s in
          let* t2b := is_black_or_null h t2 in
          if t2b : bool then
            let* h := set_pc h s p RED in
            let* pb := black h p in
            if negb pb then set_black h p
            else let* p' := parent h p in if p' =? 0 then Some h else fixup_loop f h p p'
          else
            let* t1 := right h t2 in
            let* h := set_left h s t1 in
            let* h := set_right h t2 s in
            let* h := set_right h p t2 in
            let* h := set_pc_if h t1 s BLACK in
            (* t1 = s, s = t2 *)
            let t1 := s in let s := t2 in
            let* t2 := left h s in
            let* h := set_right h p t2 in
            let* h := set_left h s p in
            let* h := set_pc h t1 s BLACK in
            let* h := set_parent_if h t2 p in
            rotate_set_parents h p s BLACK
        else
          let* t2 := left h s in
          let* h := set_right h p t2 in
          let* h := set_left h s p in
          let* h := set_pc h t1 s BLACK in
          let* h := set_parent_if h t2 p in
          rotate_set_parents h p s BLACK
      else
        let* s := left h p in
        let* sb := black h s in
        let* (h, s) :=
          (if negb sb then
             let* t1 := right h s in
             let* h := set_left h p t1 in
             let* h := set_right h s p in
             let* h := set_pc h t1 p BLACK in
             let* h := rotate_set_parents h p s RED in
             Some (h, t1)
           else Some (h, s)) in
        let* t1 := left h s in
        let* t1b := is_black_or_null h t1 in
        if t1b : bool then
          let* t2 := right h s in
          let* t2b := is_black_or_null h t2 in
          if t2b : bool then
            let* h := set_pc h s p RED in
            let* pb := black h p in
            if negb pb then set_black h p
            else let* p' := parent h p in if p' =? 0 then Some h else fixup_loop f h p p'
          else
            let* t1 := left h t2 in
            let* h := set_right h s t1 in
            let* h := set_left h t2 s in
            let* h := set_left h p t2 in
            let* h := set_pc_if h t1 s BLACK in
            let t1 := s in let s := t2 in
            let* t2 := right h s in
            let* h := set_left h p t2 in
            let* h := set_right h s p in
            let* h := set_pc h t1 s BLACK in
            let* h := set_parent_if h t2 p in
            rotate_set_parents h p s BLACK
        else
          let* t2 := right h s in
          let* h := set_left h p t2 in
          let* h := set_right h s p in
          let* h := set_pc h t1 s BLACK in
          let* h := set_parent_if h t2 p in
          rotate_set_parents h p s BLACK
  end.

(** the walk to the successor, lines 456-460: (p, s) with s the node without left child *)
Fixpoint leftmost (fuel : nat) (h : heap) (p s : nat) : option (nat * nat) :=
  match fuel with
  | O => None
  | S f => let* t := left h s in if t =? 0 then Some (p, s) else leftmost f h s t
  end.
(** rjs_rbt_remove, lines 424-490; the last step is rbt_fixup when b is not NULL *)
Definition rbt_remove (fuel : nat) (h : heap) (n : nat) : option heap :=
  let* c := right h n in
  let* t := left h n in
  let* (h, b) :=
    (if t =? 0 then
       let* p := parent h n in
       let* pb := black h n in
       let* h := change_child h n c p in
       if negb (c =? 0) then let* h := set_pc h c p pb in Some (h, 0)
       else Some (h, if pb : bool then p else 0)
     else if c =? 0 then
       let* p := parent h n in
       let* pb := black h n in
       let* h := set_pc h t p pb in
       let* h := change_child h n t p in
       Some (h, 0)
     else
       let* t := left h c in
       let* (h, p, s, c2) :=
         (if t =? 0 then let* c2 := right h c in Some (h, c, c, c2)
          else
            let* (p, s) := leftmost fuel h c t in
            let* c2 := right h s in
            let* h := set_left h p c2 in
            let* h := set_right h s c in
            let* h := set_parent h c s in
            Some (h, p, s, c2)) in
       let* t := left h n in
       let* h := set_left h s t in
       let* h := set_parent h t s in
       let* np := parent h n in
       let* nb := black h n in
       let* h := change_child h n s np in
       if negb (c2 =? 0) then
         let* h := set_pc h s np nb in
         let* h := set_pc h c2 p BLACK in
         Some (h, 0)
       else
         let* sb := black h s in
         let* h := set_pc h s np nb in
         Some (h, if sb : bool then p else 0)) in
  if negb (b =? 0) then fixup_loop fuel h 0 b else Some h.

(** rjs_rbt_first, rjs_rbt_last, lines 137-170 *)
Fixpoint go_left (fuel : nat) (h : heap) (n : nat) : option nat :=
  match fuel with O => None | S f => let* l := left h n in if l =? 0 then Some n else go_left f h l end.
Fixpoint go_right (fuel : nat) (h : heap) (n : nat) : option nat :=
  match fuel with O => None | S f => let* r := right h n in if r =? 0 then Some n else go_right f h r end.
Definition rbt_first (fuel : nat) (h : heap) : option nat := if root h =? 0 then Some 0 else go_left fuel h (root h).
Definition rbt_last (fuel : nat) (h : heap) : option nat := if root h =? 0 then Some 0 else go_right fuel h (root h).
(** the climbing loops of rjs_rbt_prev (lines 191-194) and rjs_rbt_next (219-222) *)
Fixpoint climb_prev (fuel : nat) (h : heap) (n : nat) : option nat :=
  match fuel with
  | O => None
  | S f => let* p := parent h n in if p =? 0 then Some 0 else let* l := left h p in if l =? n then climb_prev f h p else Some p
  end.
Fixpoint climb_next (fuel : nat) (h : heap) (n : nat) : option nat :=
  match fuel with
  | O => None
  | S f => let* p := parent h n in if p =? 0 then Some 0 else let* r := right h p in if r =? n then climb_next f h p else Some p
  end.
Definition rbt_prev (fuel : nat) (h : heap) (n : nat) : option nat :=
  if n =? 0 then Some 0
  else let* l := left h n in if negb (l =? 0) then go_right fuel h l else climb_prev fuel h n.
Definition rbt_next (fuel : nat) (h : heap) (n : nat) : option nat :=
  if n =? 0 then Some 0
  else let* r := right h n in if negb (r =? 0) then go_left fuel h r else climb_next fuel h n.

(** ** The searches of rjs_object.c; [idx a] is the field index of the node at [a] *)
(** prop_lookup: 0 when there is no such node *)
Fixpoint search (fuel : nat) (h : heap) (idx : nat -> Z) (i : Z) (a : nat) : option nat :=
  match fuel with
  | O => None
  | S f =>
      if a =? 0 then Some 0
      else if (idx a =? i)%Z then Some a
      else if (i <? idx a)%Z then let* l := left h a in search f h idx i l
      else let* r := right h a in search f h idx i r
  end.
Definition lookup (fuel : nat) (h : heap) (idx : nat -> Z) (i : Z) : option nat := search fuel h idx i (root h).

(** Where a new node goes: the parent and the side of the pointer [pos] *)
Inductive side := SRoot | SLeft | SRight.
Fixpoint descend (fuel : nat) (h : heap) (idx : nat -> Z) (i : Z) (a p : nat) (d : side) : option (nat * side) :=
  match fuel with
  | O => None
  | S f =>
      if a =? 0 then Some (p, d)
      else if (i <? idx a)%Z then let* l := left h a in descend f h idx i l a SLeft
      else let* r := right h a in descend f h idx i r a SRight
  end.
(** rjs_rbt_link *)
Definition link (h : heap) (n p : nat) (d : side) : option heap :=
  let h1 := {| mem := upd (mem h) n (Some {| lf := 0; rg := 0; pa := p; bl := false |}); root := root h |} in
  match d with
  | SRoot => Some {| mem := mem h1; root := n |}
  | SLeft => set_left h1 p n
  | SRight => set_right h1 p n
  end.
(** prop_add for a tree: [n] is the new node, its index is [idx n] *)
Definition add (fuel : nat) (h : heap) (idx : nat -> Z) (n : nat) : option heap :=
  let* (p, d) := descend fuel h idx (idx n) (root h) 0 SRoot in
  let* h := link h n p d in
  rbt_insert fuel h n.
(** prop_delete for a tree: the loop expects the index to be there; the node is freed *)
Fixpoint locate (fuel : nat) (h : heap) (idx : nat -> Z) (i : Z) (a : nat) : option nat :=
  match fuel with
  | O => None
  | S f =>
      if a =? 0 then None (* null dereference *)
      else if (idx a =? i)%Z then Some a
      else if (i <? idx a)%Z then let* l := left h a in locate f h idx i l
      else let* r := right h a in locate f h idx i r
  end.
Definition free (h : heap) (n : nat) : heap := {| mem := upd (mem h) n None; root := root h |}.
Definition delete (fuel : nat) (h : heap) (idx : nat -> Z) (i : Z) : option heap :=
  let* n := locate fuel h idx i (root h) in
  let* h := rbt_remove fuel h n in
  Some (free h n).
(** all nodes by first and next, as in rjs_property_key_list_add_own_keys, lines 1184-1193 *)
Fixpoint visit (steps fuel : nat) (h : heap) (a : nat) : option (list nat) :=
  if a =? 0 then Some []
  else match steps with
       | O => None
       | S k => let* b := rbt_next fuel h a in let* l := visit k fuel h b in Some (a :: l)
       end.
Definition visit_all (steps fuel : nat) (h : heap) : option (list nat) :=
  let* a := rbt_first fuel h in visit steps fuel h a.
Definition empty_heap : heap := {| mem := fun _ => None; root := 0 |}.
