(** C67: what is observed of a proxy keeps the invariants of the essential internal methods.
    C68: the answers of the traps are taken exactly when ECMA-262 10.5 takes them. *)
From Coq Require Import ZArith List Bool Lia.
Import ListNotations.
From Verif Require Import StrModel StoreModel StoreSpec ObjModel ObjSpec ProxyModel ProxySpec ProxyProofs ProxyTrapProofs.
Local Open Scope Z_scope.

(** ** C67 *)

(** A proxy of an ordinary object or an array: whatever the handler answers and whatever the
    script does meanwhile, no answer contradicts an earlier one, and no key is listed twice. *)
Theorem C67_invariants : forall ops0 h rv es t ops s' log,
  Forall op_ok ops0 -> o_run [] ops0 = Done h -> Forall ev_ok es -> Forall pop_ok ops -> shallow t -> Forall shallow_op ops ->
  p_run t {| hp := h; revoked := rv; evs := es; lost := false |} ops = Some (s', log) -> consistent log /\ keys_distinct log.
Proof.
  intros ops0 h rv es t ops s' log O E V W S SO R. eapply invariants; try eassumption. rewrite (keeps_run _ _ _ _ _ S SO R). reflexivity.
Qed.
Print Assumptions C67_invariants.

(** Proxies of proxies, to any depth: the same, as long as no exception is lost. *)
Theorem C67_nested_partial : forall ops0 h rv es t ops s' log,
  Forall op_ok ops0 -> o_run [] ops0 = Done h -> Forall ev_ok es -> Forall pop_ok ops ->
  p_run t {| hp := h; revoked := rv; evs := es; lost := false |} ops = Some (s', log) -> lost s' = false -> consistent log /\ keys_distinct log.
Proof. exact invariants. Qed.
Print Assumptions C67_nested_partial.

Definition ev (a : ans) : event := {| e_ops := []; e_revoke := []; e_ans := a |}.
Definition k1 : key := KName (NStr 1).
Definition mkd (v : val) (w e c : bool) : desc := {| d_val := Some v; d_wr := Some w; d_get := None; d_set := None; d_en := Some e; d_cf := Some c |}.
Definition frozenish : list oop := [NewObject None; Define 0 k1 (mkd (Num 7) true true true) None; Prevent 0].

(** An exception of the isExtensible trap of an inner proxy counts as "extensible" in
    [[HasProperty]] of the outer one: a property of a non-extensible object is denied and then seen. *)
Theorem C67_has_refuted : exists ops0 h es t ops s' log,
  Forall op_ok ops0 /\ o_run [] ops0 = Done h /\ Forall ev_ok es /\ Forall pop_ok ops /\
  p_run t {| hp := h; revoked := []; evs := es; lost := false |} ops = Some (s', log) /\ ~ consistent log.
Proof.
  exists frozenish. eexists.
  exists [ev NoTrap; ev NoTrap; ev (Bool false); ev NoTrap; ev Throws; ev NoTrap; ev NoTrap], (TProxy 0 (TProxy 1 (TObj 0))), [PIsExt; PHas k1; PGetOwn k1].
  eexists. eexists. split; [repeat constructor|]. split; [vm_compute; reflexivity|]. split; [repeat constructor|]. split; [repeat constructor|]. split; [vm_compute; reflexivity|].
  intro H. eapply (H [OExt false; OHas k1 false] _ [] eq_refl (FAbsent k1)); [|apply c_appears].
  apply (k_nonext [OExt false]); [apply (k_teaches []); constructor | constructor].
Qed.
Print Assumptions C67_has_refuted.
(** The same in [[Delete]] and [[GetPrototypeOf]]. *)
Theorem C67_delete_refuted : exists ops0 h es t ops s' log,
  Forall op_ok ops0 /\ o_run [] ops0 = Done h /\ Forall ev_ok es /\ Forall pop_ok ops /\
  p_run t {| hp := h; revoked := []; evs := es; lost := false |} ops = Some (s', log) /\ ~ consistent log.
Proof.
  exists frozenish. eexists.
  exists [ev NoTrap; ev NoTrap; ev (Bool true); ev NoTrap; ev Throws; ev NoTrap; ev NoTrap], (TProxy 0 (TProxy 1 (TObj 0))), [PIsExt; PDelete k1; PGetOwn k1].
  eexists. eexists. split; [repeat constructor|]. split; [vm_compute; reflexivity|]. split; [repeat constructor|]. split; [repeat constructor|]. split; [vm_compute; reflexivity|].
  intro H. eapply (H [OExt false; ODelete k1 true] _ [] eq_refl (FAbsent k1)); [|apply c_appears].
  apply (k_nonext [OExt false]); [apply (k_teaches []); constructor | constructor].
Qed.
Print Assumptions C67_delete_refuted.
Theorem C67_proto_refuted : exists ops0 h es t ops s' log,
  Forall op_ok ops0 /\ o_run [] ops0 = Done h /\ Forall ev_ok es /\ Forall pop_ok ops /\
  p_run t {| hp := h; revoked := []; evs := es; lost := false |} ops = Some (s', log) /\ ~ consistent log.
Proof.
  exists frozenish. eexists.
  exists [ev NoTrap; ev NoTrap; ev (Ref (Some 0%nat)); ev Throws; ev NoTrap; ev NoTrap], (TProxy 0 (TProxy 1 (TObj 0))), [PIsExt; PGetProto; PGetProto].
  eexists. eexists. split; [repeat constructor|]. split; [vm_compute; reflexivity|]. split; [repeat constructor|]. split; [repeat constructor|]. split; [vm_compute; reflexivity|].
  intro H. eapply (H [OExt false; OProto (Some 0%nat)] _ [] eq_refl (FProto (Some 0%nat))); [|apply c_proto; discriminate].
  apply (k_nonext [OExt false]); [apply (k_teaches []); constructor | constructor].
Qed.
Print Assumptions C67_proto_refuted.

(** A handler that lies as far as it may: a writable non-configurable property whose value
    the get trap invents, a hidden configurable property while the target is extensible; the
    lie about a pinned property is a TypeError and leaves nothing in the log. *)
Ltac oks := repeat apply Forall_cons; try apply Forall_nil; cbn; unfold valid_index, wf_desc; auto; try (split; [lia || exact I | left; split; reflexivity]); try lia.
Example C67_witness :
  let ops0 := [NewObject None; Define 0 k1 (mkd (Num 7) true true false) None; Define 0 (KIdx 4) (mkd (Num 8) false true true) None] in
  let es := [ev (Val (Num 9)); ev (Bool false); ev (Bool false); ev (KeyList [k1]); ev (Bool true);
             {| e_ops := [Prevent 0]; e_revoke := []; e_ans := Bool false |}; ev AnObject; ev (Descr (mkd (Num 3) true true false)); ev (KeyList [k1]); ev NoTrap] in
  let ops := [PGet k1; PHas (KIdx 4); PHas k1; PKeys; PIsExt; PIsExt; PGetOwn k1; PKeys; PKeys] in
  exists h s', o_run [] ops0 = Done h /\ Forall op_ok ops0 /\ Forall ev_ok es /\ Forall pop_ok ops /\ shallow (TProxy 0 (TObj 0)) /\ Forall shallow_op ops /\
    p_run (TProxy 0 (TObj 0)) {| hp := h; revoked := []; evs := es; lost := false |} ops =
      Some (s', [OGet k1 (Num 9); OHas (KIdx 4) false; OKeys [k1]; OExt true; OExt false; OGetOwn k1 (Some (mkd (Num 3) true true false)); OKeys [KIdx 4; k1]]).
Proof.
  cbv zeta. eexists. eexists. split; [vm_compute; reflexivity|]. split; [oks|].
  split; [repeat constructor|]. split; [oks|]. split; [constructor|]. split; [repeat constructor|]. vm_compute. reflexivity.
Qed.

(** ** C68 *)

(** [p] is a proxy of the object [x], whose trap was called: see [trap_called]. *)
Theorem C68_get_prototype_of : forall p x s e s1 o q, trap_called p x s e s1 o -> e_ans e = Ref q ->
  verdict (accepts_proto (ext o) (proto o) q) (get_proto (TProxy p (TObj x)) s) q s1.
Proof. intros p x s e s1 o q C. exact (trap_proto p x (TObj x) s e s1 o eq_refl C q). Qed.
Print Assumptions C68_get_prototype_of.
Theorem C68_set_prototype_of : forall p x s e s1 o q, trap_called p x s e s1 o -> e_ans e = Bool true ->
  verdict (accepts_proto (ext o) (proto o) q) (set_proto_of (TProxy p (TObj x)) q s) true s1.
Proof. intros p x s e s1 o q C. exact (trap_set_proto p x (TObj x) s e s1 o eq_refl C q). Qed.
Print Assumptions C68_set_prototype_of.
Theorem C68_is_extensible : forall p x s e s1 o b, trap_called p x s e s1 o -> e_ans e = Bool b ->
  verdict (b = ext o) (is_ext (TProxy p (TObj x)) s) b s1.
Proof. intros p x s e s1 o b C. exact (trap_is_ext p x (TObj x) s e s1 o eq_refl C b). Qed.
Print Assumptions C68_is_extensible.
Theorem C68_prevent_extensions : forall p x s e s1 o, trap_called p x s e s1 o -> e_ans e = Bool true ->
  verdict (ext o = false) (prevent (TProxy p (TObj x)) s) true s1.
Proof. intros p x s e s1 o C. exact (trap_prevent p x (TObj x) s e s1 o eq_refl C). Qed.
Print Assumptions C68_prevent_extensions.
Theorem C68_get_own_undefined : forall p x s e s1 o k c, trap_called p x s e s1 o -> valid_key k -> at_key o k c -> e_ans e = Val Undef ->
  verdict (accepts_missing (ext o) c) (get_own_of (TProxy p (TObj x)) k s) None s1.
Proof. intros p x s e s1 o k c C V K. exact (trap_missing p x (TObj x) s e s1 o eq_refl C k c V K). Qed.
Print Assumptions C68_get_own_undefined.
Theorem C68_get_own_object : forall p x s e s1 o k c e2 r d a, trap_called p x s e s1 o -> valid_key k -> at_key o k c ->
  e_ans e = AnObject -> evs s1 = e2 :: r -> Forall op_ok (e_ops e2) -> forall h2, o_run (hp s1) (e_ops e2) = Done h2 -> e_ans e2 = Descr d ->
  let s2 := {| hp := h2; revoked := e_revoke e2 ++ revoked s1; evs := r; lost := lost s1 |} in
  (is_accessor_desc d /\ is_data_desc d -> get_own_of (TProxy p (TObj x)) k s = Thrown s2) /\
  (~ (is_accessor_desc d /\ is_data_desc d) -> settle d a -> verdict (accepts_desc (ext o) c a) (get_own_of (TProxy p (TObj x)) k s) (Some (full a)) s2).
Proof. intros p x s e s1 o k c e2 r d a C V K. exact (trap_desc p x (TObj x) s e s1 o eq_refl C k c V K e2 r d a). Qed.
Print Assumptions C68_get_own_object.
Theorem C68_define : forall p x s e s1 o k c d cv, trap_called p x s e s1 o -> valid_key k -> at_key o k c -> wf_desc d -> e_ans e = Bool true ->
  verdict (accepts_define (ext o) c d) (define_of (TProxy p (TObj x)) k d cv s) true s1.
Proof. intros p x s e s1 o k c d cv C V K. exact (trap_define p x (TObj x) s e s1 o eq_refl C k c V K d cv). Qed.
Print Assumptions C68_define.
Theorem C68_has : forall p x s e s1 o k c, trap_called p x s e s1 o -> valid_key k -> at_key o k c -> e_ans e = Bool false ->
  verdict (accepts_missing (ext o) c) (has_of (TProxy p (TObj x)) k s) false s1.
Proof. intros p x s e s1 o k c C V K. exact (trap_has p x (TObj x) s e s1 o eq_refl C k c V K). Qed.
Print Assumptions C68_has.
Theorem C68_get : forall p x s e s1 o k c v, trap_called p x s e s1 o -> valid_key k -> at_key o k c -> e_ans e = Val v ->
  verdict (accepts_get c v) (get_of (TProxy p (TObj x)) k s) v s1.
Proof. intros p x s e s1 o k c v C V K. exact (trap_get p x (TObj x) s e s1 o eq_refl C k c V K v). Qed.
Print Assumptions C68_get.
Theorem C68_set : forall p x s e s1 o k c v rcv cv, trap_called p x s e s1 o -> valid_key k -> at_key o k c -> e_ans e = Bool true ->
  verdict (accepts_set c v) (set_of (TProxy p (TObj x)) k v rcv cv s) true s1.
Proof. intros p x s e s1 o k c v rcv cv C V K. exact (trap_set p x (TObj x) s e s1 o eq_refl C k c V K v rcv cv). Qed.
Print Assumptions C68_set.
Theorem C68_delete : forall p x s e s1 o k c, trap_called p x s e s1 o -> valid_key k -> at_key o k c -> e_ans e = Bool true ->
  verdict (accepts_missing (ext o) c) (delete_of (TProxy p (TObj x)) k s) true s1.
Proof. intros p x s e s1 o k c C V K. exact (trap_delete p x (TObj x) s e s1 o eq_refl C k c V K). Qed.
Print Assumptions C68_delete.
Theorem C68_own_keys : forall p x s e s1 o ks, trap_called p x s e s1 o -> Forall valid_key ks -> e_ans e = KeyList ks ->
  verdict (accepts_keys (ext o) (fun k => valid_key k /\ exists a, own o k a) (fun k => valid_key k /\ exists a, own o k a /\ non_configurable a) ks)
    (keys_of (TProxy p (TObj x)) s) ks s1.
Proof. intros p x s e s1 o ks C. exact (trap_keys p x (TObj x) s e s1 o eq_refl C ks). Qed.
Print Assumptions C68_own_keys.
(** A refusal (false) is passed on, an answer of the wrong type is a TypeError. *)
Theorem C68_refusals : forall p x s e s1 o, trap_called p x s e s1 o ->
  (e_ans e = Bool false -> forall q k d v rcv cv, set_proto_of (TProxy p (TObj x)) q s = Ret false s1 /\ prevent (TProxy p (TObj x)) s = Ret false s1 /\
     define_of (TProxy p (TObj x)) k d cv s = Ret false s1 /\ set_of (TProxy p (TObj x)) k v rcv cv s = Ret false s1 /\ delete_of (TProxy p (TObj x)) k s = Ret false s1) /\
  (e_ans e = Bool true -> forall k, has_of (TProxy p (TObj x)) k s = Ret true s1) /\
  (e_ans e = Bad -> get_proto (TProxy p (TObj x)) s = Thrown s1 /\ (forall k, get_own_of (TProxy p (TObj x)) k s = Thrown s1) /\ keys_of (TProxy p (TObj x)) s = Thrown s1).
Proof.
  intros p x s e s1 o C. pose proof (called _ _ _ _ _ _ C) as S0. split; [|split].
  - intros A q k d v rcv cv. cbn [set_proto_of prevent define_of set_of delete_of]. rewrite !(trap_step p x s e s1 o _ _ S0) by (rewrite A; discriminate). rewrite A. repeat split.
  - intros A k. cbn [has_of]. rewrite (trap_step p x s e s1 o _ _ S0) by (rewrite A; discriminate). rewrite A. reflexivity.
  - intros A. split; [exact (trap_proto_bad p x (TObj x) s e s1 o C A)|]. split; [intro k; exact (trap_own_bad p x (TObj x) s e s1 o C k A) | exact (trap_keys_bad p x (TObj x) s e s1 o C A)].
Qed.
Print Assumptions C68_refusals.
(** Without a trap the target answers; a revoked proxy throws. *)
Theorem C68_no_trap : forall p t op s e r h, (forall ops, op <> PScript ops) -> ~ In p (revoked s) -> evs s = e :: r -> o_run (hp s) (e_ops e) = Done h -> e_ans e = NoTrap ->
  p_step (TProxy p t) op s = p_step t op {| hp := h; revoked := e_revoke e ++ revoked s; evs := r; lost := lost s |}.
Proof. exact transparent. Qed.
Print Assumptions C68_no_trap.
Theorem C68_revoked : forall p t op s, (forall ops, op <> PScript ops) -> In p (revoked s) -> p_step (TProxy p t) op s = Thrown s.
Proof. exact revoked_throws. Qed.
Print Assumptions C68_revoked.

(** A target with a pinned and a configurable property; the ownKeys trap must list the first. *)
Example C68_witness :
  let ops0 := [NewObject None; Define 0 k1 (mkd (Num 7) true true false) None; Define 0 (KIdx 4) (mkd (Num 8) false true true) None] in
  forall h, o_run [] ops0 = Done h ->
  let s r := {| hp := h; revoked := []; evs := r; lost := false |} in
  (exists o, trap_called 0 0 (s [ev (KeyList [k1])]) (ev (KeyList [k1])) (s []) o /\ at_key o k1 (Some (AData (Num 7) true true false)) /\ at_key o (KIdx 9) None) /\
  keys_of (TProxy 0 (TObj 0)) (s [ev (KeyList [k1])]) = Ret [k1] (s []) /\
  keys_of (TProxy 0 (TObj 0)) (s [ev (KeyList [KIdx 4])]) = Thrown (s []).
Proof.
  intros ops0 h E s. pose proof E as E0. vm_compute in E. injection E as <-. split; [|split; vm_compute; reflexivity]. eexists. split.
  - split; [exists ops0; split; [unfold ops0; oks | exact E0]|].
    split; [intros []|]. split; [reflexivity|]. split; [constructor|]. split; [reflexivity|]. split; [reflexivity|]. split; [reflexivity|]. split; [reflexivity | discriminate].
  - split; vm_compute; reflexivity.
Qed.
