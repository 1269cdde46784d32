(** What Atomics on one element must do: linearizability, stated on histories. *)
From Coq Require Import ZArith List Bool.
Import ListNotations.
From Verif Require Import BufModel AtomModel.
Local Open Scope Z_scope.

(** Number of bits and signedness of the elements. *)
Definition bits (t : etype) : Z :=
  match t with
  | INT8 | UINT8 | UINT8C => 8
  | INT16 | UINT16 => 16
  | INT32 | UINT32 | FLOAT32 => 32
  | BIGINT64 | BIGUINT64 | FLOAT64 => 64
  end.
Definition signed (t : etype) : bool :=
  match t with INT8 | INT16 | INT32 | BIGINT64 => true | _ => false end.
Definition in_range (t : etype) (v : Z) : Prop :=
  if signed t then - 2 ^ (bits t - 1) <= v < 2 ^ (bits t - 1) else 0 <= v < 2 ^ bits t.
(** The value of the type congruent to [v] modulo 2^bits. *)
Definition wrap (t : etype) (v : Z) : Z :=
  if signed t then (v + 2 ^ (bits t - 1)) mod 2 ^ bits t - 2 ^ (bits t - 1) else v mod 2 ^ bits t.

(** One operation on an element with value [x], as in the standard: the result
    and the new value. *)
Definition seq_op (t : etype) (o : op) (x : Z) : Z * Z :=
  match o with
  | OLoad => (x, x)
  | OStore v => (v, wrap t v)
  | ORmw Add v => (x, wrap t (x + v))
  | ORmw Sub v => (x, wrap t (x - v))
  | ORmw And v => (x, wrap t (Z.land x v))
  | ORmw Or v => (x, wrap t (Z.lor x v))
  | ORmw Xor v => (x, wrap t (Z.lxor x v))
  | ORmw Xchg v => (x, wrap t v)
  | OCas e r => (x, if x =? wrap t e then wrap t r else x)
  end.

(** The value of an element whose bytes are given. *)
Fixpoint base256 (bs : list Z) : Z := match bs with [] => 0 | b :: l => b + 256 * base256 l end.
Definition element (t : etype) (le : bool) (bs : list Z) : Z := wrap t (base256 (if le then bs else rev bs)).

(** A completed operation in a sequential history. *)
Record call := mkCall { cid : id; cop : op; cres : Z }.
Fixpoint legal (t : etype) (x : Z) (l : list call) : Prop :=
  match l with
  | [] => True
  | c :: l => cres c = fst (seq_op t (cop c) x) /\ legal t (snd (seq_op t (cop c) x)) l
  end.
Fixpoint final (t : etype) (x : Z) (l : list call) : Z :=
  match l with [] => x | c :: l => final t (snd (seq_op t (cop c) x)) l end.

Definition before {A} (l : list A) (x y : A) : Prop := exists l1 l2 l3, l = l1 ++ x :: l2 ++ y :: l3.

(** The sequential history [l] explains [h]: it contains every returned call with
    its result, only calls that were made, each once, it is legal, and it keeps
    the order of calls that do not overlap. *)
Definition explains (t : etype) (x : Z) (h : list event) (l : list call) : Prop :=
  NoDup (map cid l) /\
  legal t x l /\
  (forall i r, In (ERet i r) h -> exists o, In (mkCall i o r) l) /\
  (forall c, In c l -> In (EInv (cid c) (cop c)) h) /\
  (forall i r j o, before h (ERet i r) (EInv j o) -> In j (map cid l) -> before (map cid l) i j).
Definition linearizable (t : etype) (x : Z) (h : list event) : Prop := exists l, explains t x h l.

(** Every agent has made all its calls. *)
Definition quiet (s : st) : Prop := forall g, In g (agents s) -> todo g = [] /\ at_ g = PIdle.

(** load and store; the other operations are the C11 atomic ones. *)
Definition locked_op (o : op) : bool := match o with OLoad | OStore _ => true | _ => false end.
Definition unmixed (progs : list (list op)) : Prop :=
  exists b, forall p o, In p progs -> In o p -> locked_op o = b.
