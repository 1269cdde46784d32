(** Search trees, red/black balance, and what it means that memory holds a tree. *)
From Coq Require Import List Bool Arith ZArith Sorted.
Import ListNotations.
From Verif Require Import RbtModel.

(** a node is black ([true]) or red; [a] is its address *)
Inductive tree := E | T (c : bool) (l : tree) (a : nat) (r : tree).
(** the nodes in order *)
Fixpoint elems (t : tree) : list nat := match t with E => [] | T _ l a r => elems l ++ a :: elems r end.
Fixpoint height (t : tree) : nat := match t with E => 0 | T _ l _ r => S (Nat.max (height l) (height r)) end.
Definition is_black (t : tree) : bool := match t with E => true | T c _ _ _ => c end.
(** no red node has a red child and every path has [n] black nodes *)
Inductive wf : tree -> nat -> Prop :=
  | wf_E : wf E 0
  | wf_B : forall l a r n, wf l n -> wf r n -> wf (T true l a r) (S n)
  | wf_R : forall l a r n, wf l n -> wf r n -> is_black l = true -> is_black r = true -> wf (T false l a r) n.
Definition balanced (t : tree) : Prop := is_black t = true /\ exists n, wf t n.

Definition ra (t : tree) : nat := match t with E => 0 | T _ _ a _ => a end.
(** memory [m] holds the tree [t] below the parent [p] *)
Fixpoint rep (m : memory) (p : nat) (t : tree) : Prop :=
  match t with
  | E => True
  | T c l a r => m a = Some {| lf := ra l; rg := ra r; pa := p; bl := c |} /\ rep m a l /\ rep m a r
  end.
Definition stores (h : heap) (t : tree) : Prop :=
  root h = ra t /\ rep (mem h) 0 t /\ NoDup (elems t) /\ ~ In 0 (elems t).
(** the indices ascend *)
Definition ordered (idx : nat -> Z) (t : tree) : Prop := StronglySorted Z.lt (map idx (elems t)).

(** Histories of a tree property store *)
Inductive rop := Add (n : nat) (i : Z) | Del (i : Z).
(** the contents: index and node, in order *)
Fixpoint put (l : list (Z * nat)) (i : Z) (n : nat) : list (Z * nat) :=
  match l with
  | [] => [(i, n)]
  | (j, b) :: r => if (i <? j)%Z then (i, n) :: (j, b) :: r else (j, b) :: put r i n
  end.
Definition drop (l : list (Z * nat)) (i : Z) : list (Z * nat) := filter (fun e => negb (fst e =? i)%Z) l.
Definition keys (l : list (Z * nat)) : list Z := map fst l.
Definition nodes (l : list (Z * nat)) : list nat := map snd l.
(** A history that the engine can produce: new nodes are fresh and not NULL, a new index is
    not there yet (prop_add follows a failed look up), a removed index is there *)
Inductive history : list rop -> list (Z * nat) -> Prop :=
  | h_nil : history [] []
  | h_add : forall ops l n i, history ops l -> n <> 0 -> ~ In n (nodes l) -> ~ In i (keys l) -> history (ops ++ [Add n i]) (put l i n)
  | h_del : forall ops l i, history ops l -> In i (keys l) -> history (ops ++ [Del i]) (drop l i).
(** running it: the state is the heap and the index fields *)
Definition step (fuel : nat) (s : heap * (nat -> Z)) (o : rop) : option (heap * (nat -> Z)) :=
  let '(h, idx) := s in
  match o with
  | Add n i => let idx := fun x => if x =? n then i else idx x in
               let* h := add fuel h idx n in Some (h, idx)
  | Del i => let* h := delete fuel h idx i in Some (h, idx)
  end.
Fixpoint run (fuel : nat) (s : heap * (nat -> Z)) (ops : list rop) : option (heap * (nat -> Z)) :=
  match ops with [] => Some s | o :: r => let* s := step fuel s o in run fuel s r end.
Definition get (l : list (Z * nat)) (i : Z) : nat :=
  match find (fun e => (fst e =? i)%Z) l with Some e => snd e | None => 0 end.
(** the state [s] holds exactly the entries [l], in a balanced search tree; no other node is
    allocated *)
Definition contents (s : heap * (nat -> Z)) (l : list (Z * nat)) : Prop :=
  exists t, stores (fst s) t /\ balanced t /\ ordered (snd s) t /\ map (fun a => (snd s a, a)) (elems t) = l /\
    height t <= 2 * Nat.log2 (S (length l)) /\ forall y, mem (fst s) y <> None <-> In y (elems t).
