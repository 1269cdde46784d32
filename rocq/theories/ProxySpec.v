(** The invariants of the essential internal methods (ECMA-262 6.1.7.3), stated about what
    is observed of one object: what an observer knows after a log of answers and
    which answers contradict what is known. *)
From Coq Require Import ZArith List Bool.
Import ListNotations.
From Verif Require Import StoreModel ObjModel ObjSpec ProxyModel.

Inductive fact :=
  | FNonExt                          (* not extensible *)
  | FProto (q : option nat)          (* not extensible, with this prototype *)
  | FAbsent (k : key)                (* not extensible and without this property *)
  | FPinned (k : key)                (* has this property, not configurable *)
  | FFixed (k : key) (a : aprop).    (* has this non-configurable property, or what it may become *)

(** what one answer says *)
Inductive teaches : obs -> fact -> Prop :=
  | t_ext : teaches (OExt false) FNonExt
  | t_prevent : teaches (OPrevent true) FNonExt
  | t_pinned : forall k a, non_configurable a -> teaches (OGetOwn k (Some (full a))) (FPinned k)
  | t_fixed : forall k a, non_configurable a -> teaches (OGetOwn k (Some (full a))) (FFixed k a)
  | t_define : forall k d, k <> KName length_key -> d_cf d = Some false -> teaches (ODefine k d true) (FPinned k).
(** what it says of an object known to be not extensible *)
Inductive teaches_nonext : obs -> fact -> Prop :=
  | tn_proto : forall q, teaches_nonext (OProto q) (FProto q)
  | tn_set_proto : forall q, teaches_nonext (OSetProto q true) (FProto q)
  | tn_own : forall k, teaches_nonext (OGetOwn k None) (FAbsent k)
  | tn_has : forall k, teaches_nonext (OHas k false) (FAbsent k)
  | tn_delete : forall k, teaches_nonext (ODelete k true) (FAbsent k)
  | tn_keys : forall k ks, ~ In k ks -> teaches_nonext (OKeys ks) (FAbsent k).
Inductive knows : list obs -> fact -> Prop :=
  | k_teaches : forall l o F, teaches o F -> knows (l ++ [o]) F
  | k_nonext : forall l o F, knows l FNonExt -> teaches_nonext o F -> knows (l ++ [o]) F
  | k_later : forall l o F, knows l F -> knows (l ++ [o]) F.

(** answers that must not follow *)
Inductive contradicts : obs -> fact -> Prop :=
  | c_ext : contradicts (OExt true) FNonExt
  | c_proto : forall q r, q <> r -> contradicts (OProto q) (FProto r)
  | c_set_proto : forall q r, q <> r -> contradicts (OSetProto q true) (FProto r)
  | c_appears : forall k c, contradicts (OGetOwn k (Some c)) (FAbsent k)
  | c_listed : forall k ks, In k ks -> contradicts (OKeys ks) (FAbsent k)
  | c_created : forall k d, k <> KName length_key -> contradicts (ODefine k d true) (FAbsent k)
  | c_vanishes : forall k, contradicts (OGetOwn k None) (FPinned k)
  | c_configurable : forall k c, d_cf c = Some true -> contradicts (OGetOwn k (Some c)) (FPinned k)
  | c_hidden : forall k, contradicts (OHas k false) (FPinned k)
  | c_deleted : forall k, contradicts (ODelete k true) (FPinned k)
  | c_unlisted : forall k ks, ~ In k ks -> contradicts (OKeys ks) (FPinned k)
  | c_changed : forall k c a, (forall b, stable a b -> c <> full b) -> contradicts (OGetOwn k (Some c)) (FFixed k a)
  | c_redefined : forall k d a, k <> KName length_key -> (forall b, stable a b -> rejected d b) -> contradicts (ODefine k d true) (FFixed k a)
  | c_value : forall k v w e c, v <> w -> contradicts (OGet k v) (FFixed k (AData w false e c))
  | c_no_getter : forall k v s e c, v <> Undef -> contradicts (OGet k v) (FFixed k (AAcc Undef s e c))
  | c_stored : forall k v w e c, v <> w -> contradicts (OSet k v true) (FFixed k (AData w false e c))
  | c_no_setter : forall k v g e c, contradicts (OSet k v true) (FFixed k (AAcc g Undef e c)).

(** the log keeps the invariants *)
Definition consistent (l : list obs) : Prop :=
  forall l1 o l2, l = l1 ++ o :: l2 -> forall F, knows l1 F -> ~ contradicts o F.
Definition keys_distinct (l : list obs) : Prop := forall ks, In (OKeys ks) l -> NoDup ks.

(** programs and scripts: valid arguments *)
Definition ev_ok (e : event) : Prop :=
  Forall op_ok (e_ops e) /\ match e_ans e with KeyList ks => Forall valid_key ks | _ => True end.
Definition pop_ok (op : pop) : Prop :=
  match op with
  | PGetOwn k | PHas k | PGet k | PDelete k => valid_key k
  | PDefine k d _ => valid_key k /\ wf_desc d
  | PSet k _ _ _ => valid_key k
  | PScript ops => Forall op_ok ops
  | _ => True
  end.
(** the ordinary object or array at the bottom *)
Fixpoint bottom (t : tgt) : nat := match t with TObj x => x | TProxy _ t' => bottom t' end.
Definition start_ok (t : tgt) (h : heap) : Prop := exists o, nth_error h (bottom t) = Some o /\ kind o <> Exotic.

(** ** Which answers of the traps are accepted (ECMA-262 10.5), for a target that is an
    ordinary object: extensibility, prototype and property of the target *)
Definition accepts_proto (e : bool) (p q : option nat) : Prop := e = true \/ q = p.
Definition settle (d : desc) (a : aprop) : Prop :=
  (~ is_accessor_desc d /\ a = AData (dflt (d_val d) Undef) (dflt (d_wr d) false) (dflt (d_en d) false) (dflt (d_cf d) false)) \/
  (is_accessor_desc d /\ a = AAcc (dflt (d_get d) Undef) (dflt (d_set d) Undef) (dflt (d_en d) false) (dflt (d_cf d) false)).
Definition configurable (a : aprop) : Prop := ~ non_configurable a.
Definition writable_data (a : aprop) : Prop := exists v e c, a = AData v true e c.
Definition accepts_missing (e : bool) (c : option aprop) : Prop :=
  match c with None => True | Some a => configurable a /\ e = true end.
Definition accepts_desc (e : bool) (c : option aprop) (a : aprop) : Prop :=
  (match c with None => e = true | Some b => ~ rejected (full a) b end) /\
  (non_configurable a -> exists b, c = Some b /\ non_configurable b /\ (writable_data b -> (exists v e c, a = AData v false e c) -> False)).
Definition accepts_define (e : bool) (c : option aprop) (d : desc) : Prop :=
  match c with
  | None => e = true /\ d_cf d <> Some false
  | Some b => ~ rejected d b /\ (d_cf d = Some false -> non_configurable b) /\
              (writable_data b -> non_configurable b -> d_wr d <> Some false)
  end.
Definition accepts_get (c : option aprop) (v : val) : Prop :=
  match c with
  | Some (AData w false _ false) => v = w
  | Some (AAcc Undef _ _ false) => v = Undef
  | _ => True
  end.
Definition accepts_set (c : option aprop) (v : val) : Prop :=
  match c with
  | Some (AData w false _ false) => v = w
  | Some (AAcc _ Undef _ false) => False
  | _ => True
  end.
Definition accepts_keys (e : bool) (has : key -> Prop) (pinned : key -> Prop) (ks : list key) : Prop :=
  NoDup ks /\ (forall k, pinned k -> In k ks) /\ (e = false -> forall k, In k ks <-> has k).

(** A trap is called: the proxy [p] of the object [x] is not revoked, the script did what the
    next event says, [s1] is the state and [o] the target afterwards. *)
Definition trap_called (p x : nat) (s : pst) (e : event) (s1 : pst) (o : obj) : Prop :=
  (exists ops, Forall op_ok ops /\ o_run [] ops = Done (hp s)) /\
  ~ In p (revoked s) /\ evs s = e :: evs s1 /\ Forall op_ok (e_ops e) /\ o_run (hp s) (e_ops e) = Done (hp s1) /\
  revoked s1 = e_revoke e ++ revoked s /\ lost s1 = lost s /\
  nth_error (hp s1) x = Some o /\ kind o <> Exotic.
Definition at_key (o : obj) (k : key) (c : option aprop) : Prop :=
  match c with Some a => own o k a | None => lacks o k end.
(** the answer is taken if [P] and is a TypeError if not *)
Definition verdict {A} (P : Prop) (r : R A) (a : A) (s1 : pst) : Prop :=
  (P -> r = Ret a s1) /\ (~ P -> r = Thrown s1).
