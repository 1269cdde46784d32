(** What ECMAScript says about ordinary objects and arrays. *)
From Coq Require Import ZArith List Bool Sorting.Sorted.
Import ListNotations.
From Verif Require Import StoreModel StoreSpec ObjModel.
Local Open Scope Z_scope.

(** Property records: data or accessor *)
Inductive aprop :=
  | AData (v : val) (w e c : bool)
  | AAcc (g s : val) (e c : bool).
Definition view (p : prop) : aprop :=
  if acc p then AAcc (pget p) (pset p) (en p) (cf p) else AData (pval p) (wr p) (en p) (cf p).

(** Descriptors are what ToPropertyDescriptor can produce: never both kinds *)
Definition wf_desc (d : desc) : Prop :=
  (d_get d = None /\ d_set d = None) \/ (d_val d = None /\ d_wr d = None).

Definition dflt {A} (x : option A) (y : A) : A := match x with Some a => a | None => y end.
Definition given_and {A} (x : option A) (P : A -> Prop) : Prop := match x with Some a => P a | None => False end.
Definition is_accessor_desc (d : desc) : Prop := d_get d <> None \/ d_set d <> None.
Definition is_data_desc (d : desc) : Prop := d_val d <> None \/ d_wr d <> None.

(** ECMA-262 10.1.6.3 ValidateAndApplyPropertyDescriptor, as a relation: [rejected] lists
    the reasons of step 4, [changed] is the effect of step 5. *)
Inductive rejected (d : desc) : aprop -> Prop :=
  | rej_configurable : forall p, (match p with AData _ _ _ c => c | AAcc _ _ _ c => c end) = false -> d_cf d = Some true -> rejected d p
  | rej_enumerable : forall p e, (match p with AData _ _ _ c => c | AAcc _ _ _ c => c end) = false ->
      d_en d = Some e -> e <> (match p with AData _ _ e _ => e | AAcc _ _ e _ => e end) -> rejected d p
  | rej_to_accessor : forall v w e, is_accessor_desc d -> rejected d (AData v w e false)
  | rej_to_data : forall g s e, is_data_desc d -> rejected d (AAcc g s e false)
  | rej_get : forall g s e x, d_get d = Some x -> x <> g -> rejected d (AAcc g s e false)
  | rej_set : forall g s e x, d_set d = Some x -> x <> s -> rejected d (AAcc g s e false)
  | rej_writable : forall v e, d_wr d = Some true -> rejected d (AData v false e false)
  | rej_value : forall v e x, d_val d = Some x -> x <> v -> rejected d (AData v false e false).
Inductive changed (d : desc) : aprop -> aprop -> Prop :=
  | ch_to_accessor : forall v w e c, is_accessor_desc d ->
      changed d (AData v w e c) (AAcc (dflt (d_get d) Undef) (dflt (d_set d) Undef) (dflt (d_en d) e) (dflt (d_cf d) c))
  | ch_to_data : forall g s e c, is_data_desc d ->
      changed d (AAcc g s e c) (AData (dflt (d_val d) Undef) (dflt (d_wr d) false) (dflt (d_en d) e) (dflt (d_cf d) c))
  | ch_data : forall v w e c, ~ is_accessor_desc d ->
      changed d (AData v w e c) (AData (dflt (d_val d) v) (dflt (d_wr d) w) (dflt (d_en d) e) (dflt (d_cf d) c))
  | ch_accessor : forall g s e c, ~ is_data_desc d ->
      changed d (AAcc g s e c) (AAcc (dflt (d_get d) g) (dflt (d_set d) s) (dflt (d_en d) e) (dflt (d_cf d) c)).
Definition created (d : desc) (p : aprop) : Prop :=
  (is_accessor_desc d /\ p = AAcc (dflt (d_get d) Undef) (dflt (d_set d) Undef) (dflt (d_en d) false) (dflt (d_cf d) false)) \/
  (~ is_accessor_desc d /\ p = AData (dflt (d_val d) Undef) (dflt (d_wr d) false) (dflt (d_en d) false) (dflt (d_cf d) false)).

(** [[DefineOwnProperty]] on one key: extensible, descriptor, before, answer, after *)
Inductive ecma_define (e : bool) (d : desc) : option aprop -> bool -> option aprop -> Prop :=
  | ed_new : forall p, e = true -> created d p -> ecma_define e d None true (Some p)
  | ed_not_extensible : e = false -> ecma_define e d None false None
  | ed_rejected : forall p, rejected d p -> ecma_define e d (Some p) false (Some p)
  | ed_changed : forall p q, ~ rejected d p -> changed d p q -> ecma_define e d (Some p) true (Some q).

(** What may not change about a non-configurable property (10.1.6.3; 6.1.7.3) *)
Definition stable (a b : aprop) : Prop :=
  match a with
  | AAcc g s e c => c = false -> b = AAcc g s e false
  | AData v false e c => c = false -> b = AData v false e false
  | AData v true e c => c = false -> exists v' w', b = AData v' w' e false
  end.
Definition non_configurable (a : aprop) : Prop := match a with AData _ _ _ c => c = false | AAcc _ _ _ c => c = false end.

Definition valid_key (k : key) : Prop := match k with KIdx i => valid_index i | KName _ => True end.
(** operations a program can ask for *)
Definition op_ok (op : oop) : Prop :=
  match op with
  | NewArray _ len => 0 <= len
  | Define _ k d _ => valid_key k /\ wf_desc d
  | Delete _ k => valid_key k
  | SetProp _ k _ _ _ => valid_key k
  | _ => True
  end.
(** the object an operation was asked to change and the key *)
Definition op_key (op : oop) : option key :=
  match op with Define _ k _ _ => Some k | SetProp _ k _ _ _ => Some k | _ => None end.

(** The prototype graph *)
Definition edge (h : heap) (x y : nat) : Prop := exists o, nth_error h x = Some o /\ proto o = Some y.
Inductive reach (h : heap) : nat -> nat -> Prop :=
  | reach_one : forall x y, edge h x y -> reach h x y
  | reach_step : forall x y z, edge h x y -> reach h y z -> reach h x z.

(** Creation order of the keys of one object, from what is observed of it: keys that are
    gone are dropped, a key that was not there is appended *)
Definition mem (k : key) (g : list key) : bool := existsb (key_eqb k) g.
Definition order_step (g : list key) (has : key -> bool) (k : option key) : list key :=
  let g' := filter has g in
  match k with
  | Some k => if has k && negb (mem k g') then g' ++ [k] else g'
  | None => g'
  end.
(** OrdinaryOwnPropertyKeys: ascending indices, then strings, then symbols in creation order *)
Definition idx_of (k : key) : list Z := match k with KIdx i => [i] | _ => [] end.
Definition ordered_keys (g : list key) (ks : list key) : Prop :=
  exists ix, (forall i, In i ix <-> In (KIdx i) g) /\ StronglySorted Z.lt ix /\
    ks = map KIdx ix ++ filter (fun k => match k with KName (NStr _) => true | _ => false end) g
         ++ filter (fun k => match k with KName (NSym _) => true | _ => false end) g.

(** Creation orders of all objects along a history.  [shows]: getOwnProperty finds the key *)
Definition shows (o : obj) (k : key) : bool :=
  match get_own o k with StrModel.SOk (Some _) => true | _ => false end.
Fixpoint track (h : heap) (gs : list (list key)) (k : option key) : list (list key) :=
  match h, gs with
  | [], _ => []
  | o :: r, g :: gs' => order_step g (shows o) k :: track r gs' k
  | o :: r, [] => (if shows o (KName length_key) then [KName length_key] else []) :: track r [] k
  end.
Fixpoint run_orders (h : heap) (gs : list (list key)) (ops : list oop) : outcome (heap * list (list key)) :=
  match ops with
  | [] => Done (h, gs)
  | op :: r => bind (o_step h op) (fun y => run_orders (fst y) (track (fst y) gs (op_key op)) r)
  end.

(** What getOwnPropertyDescriptor answers: [full a] is FromPropertyDescriptor of a record *)
Definition full (a : aprop) : desc :=
  match a with
  | AData v w e c => {| d_val := Some v; d_wr := Some w; d_get := None; d_set := None; d_en := Some e; d_cf := Some c |}
  | AAcc g s e c => {| d_val := None; d_wr := None; d_get := Some g; d_set := Some s; d_en := Some e; d_cf := Some c |}
  end.
Definition own (o : obj) (k : key) (a : aprop) : Prop := get_own o k = StrModel.SOk (Some (full a)).
Definition lacks (o : obj) (k : key) : Prop := get_own o k = StrModel.SOk None.

(** Object.freeze and Object.seal on one property (ECMA-262 7.3.16) *)
Definition locked (frozen : bool) (a : aprop) : aprop :=
  match a with
  | AData v w e _ => AData v (if frozen then false else w) e false
  | AAcc g s e _ => AAcc g s e false
  end.
