(** Environment records as ECMA-262 (9.1) has them: no caches, no indices.
    Every operation names an identifier; ResolveBinding walks outwards and
    stops at the first record with the name. *)
Require Import List ZArith Lia Bool.
Require Import Verif.EnvModel.
Import ListNotations.

(** A binding: initialised, immutable, strict, deletable, value. *)
Record scell := mkS { s_init : bool; s_immut : bool; s_strict : bool; s_del : bool; s_val : val }.

Record senv := mkSE {
  s_kind : kind; s_scope : nat; s_outer : option nat; s_binds : list (name * scell) }.

Record sst := mkSS { senvs : list senv; sobjs : list (list (name * val)) }.

Definition sobj (s : sst) (o : nat) : list (name * val) := nth o (sobjs s) [].
Definition s_set_env (s : sst) (e : nat) (en : senv) : sst := mkSS (upd e en (senvs s)) (sobjs s).
Definition s_set_obj (s : sst) (o : nat) (l : list (name * val)) : sst :=
  mkSS (senvs s) (upd o l (sobjs s)).

Definition known {A} (n : name) (l : list (name * A)) : bool :=
  match assoc n l with Some _ => true | None => false end.

(** HasBinding (9.1.1.1.1, 9.1.1.2.1, 9.1.1.4.1). *)
Definition s_has (s : sst) (en : senv) (n : name) : bool :=
  match s_kind en with
  | KDecl | KFunc => known n (s_binds en)
  | KObj o => known n (sobj s o)
  | KGlobal o => known n (s_binds en) || known n (sobj s o)
  end.

(** ResolveBinding / GetIdentifierReference (9.4.2, 9.1.2.1): the innermost
    environment with the name. *)
Fixpoint s_walk (fuel : nat) (s : sst) (e : option nat) (n : name) : option nat :=
  match fuel with
  | O => None
  | S f =>
      match e with
      | None => None
      | Some i =>
          match nth_error (senvs s) i with
          | None => None
          | Some en => if s_has s en n then Some i else s_walk f s (s_outer en) n
          end
      end
  end.

Definition s_resolve (s : sst) (e : nat) (n : name) : option nat :=
  s_walk (S (S (length (senvs s)))) s (Some e) n.

(** Declarative records (9.1.1.1). *)
Definition s_decl_create (s : sst) (e : nat) (en : senv) (n : name) (i t d : bool) : sst * out :=
  if known n (s_binds en) then (s, OAbort)
  else (s_set_env s e (mkSE (s_kind en) (s_scope en) (s_outer en)
                            (s_binds en ++ [(n, mkS false i t d Undef)])), OUnit).

Definition s_bind (s : sst) (e : nat) (en : senv) (n : name) (c : scell) : sst :=
  s_set_env s e (mkSE (s_kind en) (s_scope en) (s_outer en) (assoc_set n c (s_binds en))).

Definition s_decl_init (s : sst) (e : nat) (en : senv) (n : name) (v : val) : sst * out :=
  match assoc n (s_binds en) with
  | Some c => if s_init c then (s, OAbort)
              else (s_bind s e en n (mkS true (s_immut c) (s_strict c) (s_del c) v), OUnit)
  | None => (s, OAbort)
  end.

Definition s_decl_set (s : sst) (e : nat) (en : senv) (n : name) (v : val) (t : bool) : sst * out :=
  match assoc n (s_binds en) with
  | None =>
      if t then (s, ORefError)
      else (s_set_env s e (mkSE (s_kind en) (s_scope en) (s_outer en)
                                (s_binds en ++ [(n, mkS true false false true v)])), OUnit)
  | Some c =>
      if negb (s_init c) then (s, ORefError)
      else if negb (s_immut c)
      then (s_bind s e en n (mkS true false (s_strict c) (s_del c) v), OUnit)
      else if s_strict c || t then (s, OTypeError) else (s, OUnit)
  end.

Definition s_decl_get (s : sst) (en : senv) (n : name) : sst * out :=
  match assoc n (s_binds en) with
  | Some c => if s_init c then (s, OVal (s_val c)) else (s, ORefError)
  | None => (s, OAbort)
  end.

Definition s_decl_delete (s : sst) (e : nat) (en : senv) (n : name) : sst * out :=
  match assoc n (s_binds en) with
  | Some c =>
      if s_del c
      then (s_set_env s e (mkSE (s_kind en) (s_scope en) (s_outer en)
                                (assoc_del n (s_binds en))), OBool true)
      else (s, OBool false)
  | None => (s, OAbort)
  end.

(** Object records (9.1.1.2), plain data properties. *)
Definition s_obj_set (s : sst) (o : nat) (n : name) (v : val) (t : bool) : sst * out :=
  if negb (known n (sobj s o)) && t then (s, ORefError)
  else (s_set_obj s o (assoc_set n v (sobj s o)), OUnit).

Definition s_obj_get (s : sst) (o : nat) (n : name) (t : bool) : sst * out :=
  match assoc n (sobj s o) with
  | Some v => (s, OVal v)
  | None => if t then (s, ORefError) else (s, OVal Undef)
  end.

Definition s_obj_delete (s : sst) (o : nat) (n : name) : sst * out :=
  (s_set_obj s o (assoc_del n (sobj s o)), OBool true).

(** Operations by record; a global record (9.1.1.4) uses its declarative part
    when the name is there and its object part otherwise.  [nm] gives the
    identifier a binding reference stands for. *)
Definition s_on (s : sst) (e : nat) (n : name)
    (d : senv -> sst * out) (f : nat -> sst * out) : sst * out :=
  match nth_error (senvs s) e with
  | None => (s, OUB)
  | Some en =>
      match s_kind en with
      | KDecl | KFunc => d en
      | KObj o => f o
      | KGlobal o => if known n (s_binds en) then d en else f o
      end
  end.

Definition s_create (s : sst) (e : nat) (n : name) (i t d : bool) : sst * out :=
  match nth_error (senvs s) e with
  | None => (s, OUB)
  | Some en =>
      match s_kind en with
      | KObj o => if i then (s, OAbort)
                  else (s_set_obj s o (assoc_set n Undef (sobj s o)), OUnit)
      | _ => s_decl_create s e en n i t d
      end
  end.

Definition s_step (nm : nat -> name) (s : sst) (o : op) : sst * out :=
  match o with
  | New k sc outer => (mkSS (senvs s ++ [mkSE k sc outer []]) (sobjs s), OEnv (Some (length (senvs s))))
  | Create e r i t d => s_create s e (nm r) i t d
  | Init e r v => s_on s e (nm r) (fun en => s_decl_init s e en (nm r) v)
                       (fun o => s_obj_set s o (nm r) v false)
  | Resolve e r => (s, OEnv (s_resolve s e (nm r)))
  | Get e r t => s_on s e (nm r) (fun en => s_decl_get s en (nm r))
                      (fun o => s_obj_get s o (nm r) t)
  | Put e r v t => s_on s e (nm r) (fun en => s_decl_set s e en (nm r) v t)
                        (fun o => s_obj_set s o (nm r) v t)
  | Delete e r => s_on s e (nm r) (fun en => s_decl_delete s e en (nm r))
                       (fun o => s_obj_delete s o (nm r))
  | Disable _ => (s, OUnit)
  | Clear e =>
      (* nothing in the language clears a record: a call makes a new one *)
      match nth_error (senvs s) e with
      | Some en => (s_set_env s e (mkSE (s_kind en) (s_scope en) (s_outer en) []), OUnit)
      | None => (s, OUB)
      end
  | ObjPut o n v => (s_set_obj s o (assoc_set n v (sobj s o)), OUnit)
  | ObjDel o n => (s_set_obj s o (assoc_del n (sobj s o)), OUnit)
  end.

Fixpoint s_run (nm : nat -> name) (s : sst) (l : list op) : list out :=
  match l with
  | [] => []
  | o :: t => let (s', x) := s_step nm s o in x :: s_run nm s' t
  end.

(** ** Static scoping

    What the compiler fixes: every scope has a parent scope, a kind and the
    list of names its environments get, in order; every binding reference
    belongs to one scope and one name. *)
Inductive skind := SDecl | SWith | SGlobal.
Record table := mkTab {
  t_parent : nat -> option nat;
  t_kind   : nat -> skind;
  t_names  : nat -> list name;
  t_refs   : list (nat * name) }.

Definition rscope (T : table) (r : nat) : option nat := option_map fst (nth_error (t_refs T) r).
Definition rnm (T : table) (r : nat) : name :=
  match nth_error (t_refs T) r with Some p => snd p | None => O end.

Record wf_table (T : table) : Prop := {
  wf_parent : forall s p, t_parent T s = Some p -> (p < s)%nat;
  wf_global : forall s, t_kind T s = SGlobal -> t_parent T s = None;
  wf_nodup  : forall s, NoDup (t_names T s);
  wf_small  : forall s, (Z.of_nat (length (t_names T s)) <= 65536)%Z }.

Definition kind_ok (k : kind) (sk : skind) : Prop :=
  match k, sk with
  | KDecl, SDecl | KFunc, SDecl | KObj _, SWith | KGlobal _, SGlobal => True
  | _, _ => False
  end.

(** The environments from [e] outwards. *)
Fixpoint chain (fuel : nat) (l : list senv) (e : option nat) : list nat :=
  match fuel, e with
  | S f, Some i => i :: match nth_error l i with
                        | Some en => chain f l (s_outer en)
                        | None => []
                        end
  | _, _ => []
  end.
Definition chain_of (s : sst) (e : nat) : list nat := chain (S (length (senvs s))) (senvs s) (Some e).

(** All names of the scope are there. *)
Definition complete (T : table) (s : sst) (e : nat) : Prop :=
  forall en, nth_error (senvs s) e = Some en -> t_kind T (s_scope en) = SDecl ->
             map fst (s_binds en) = t_names T (s_scope en).

(** Reference [r] may be used on environment [e]: it was resolved to [e] from
    an environment of its own scope, or [e] is such an environment itself and
    already has the name. *)
Definition reaches (T : table) (s : sst) (e r : nat) : Prop :=
  exists b ben pre post,
    nth_error (senvs s) b = Some ben /\ rscope T r = Some (s_scope ben) /\
    chain_of s b = pre ++ e :: post /\
    (forall i en, In i pre -> nth_error (senvs s) i = Some en ->
        t_kind T (s_scope en) = SDecl -> ~ In (rnm T r) (t_names T (s_scope en))) /\
    (forall en, nth_error (senvs s) e = Some en -> t_kind T (s_scope en) = SDecl ->
        In (rnm T r) (map fst (s_binds en))).

(** The runs for which the cache must be invisible: code whose environments
    get exactly the bindings their scope declares (so no direct eval adds a
    variable to the environment of a running function), and where no property
    of a global object goes away. *)
Definition allowed (T : table) (s : sst) (o : op) : Prop :=
  match o with
  | New k sc outer =>
      kind_ok k (t_kind T sc) /\
      match outer with
      | None => t_parent T sc = None
      | Some e => exists en, nth_error (senvs s) e = Some en /\ t_parent T sc = Some (s_scope en) /\
                             (Z.of_nat (length (chain_of s e)) < 65535)%Z
      end /\
      (t_kind T sc = SGlobal -> forall i en, nth_error (senvs s) i = Some en -> s_scope en <> sc)
  | Create e r i t d =>
      d = false /\ (r < length (t_refs T))%nat /\
      exists en, nth_error (senvs s) e = Some en /\
        match t_kind T (s_scope en) with
        | SDecl => nth_error (t_names T (s_scope en)) (length (s_binds en)) = Some (rnm T r)
        | SGlobal => ~ In (rnm T r) (map fst (s_binds en)) /\
                     (Z.of_nat (length (s_binds en)) < 65536)%Z /\
                     rscope T r = Some (s_scope en)
        | SWith => False
        end
  | Init e r _ | Get e r _ | Put e r _ _ => (r < length (t_refs T))%nat /\ reaches T s e r
  | Resolve e r =>
      (r < length (t_refs T))%nat /\
      (exists en, nth_error (senvs s) e = Some en /\ rscope T r = Some (s_scope en)) /\
      (forall i, In i (chain_of s e) -> complete T s i)
  | Delete e r =>
      (r < length (t_refs T))%nat /\ reaches T s e r /\
      (forall en o, nth_error (senvs s) e = Some en -> s_kind en = KGlobal o ->
                    In (rnm T r) (map fst (s_binds en))) /\
      (forall en o i gen, nth_error (senvs s) e = Some en -> s_kind en = KObj o ->
                    nth_error (senvs s) i = Some gen -> s_kind gen <> KGlobal o)
  | Disable _ => False
  | Clear e => exists en, nth_error (senvs s) e = Some en /\ s_kind en = KFunc
  | ObjPut _ _ _ => True
  | ObjDel o _ => forall i en, nth_error (senvs s) i = Some en -> s_kind en <> KGlobal o
  end.

Fixpoint all_allowed (T : table) (s : sst) (l : list op) : Prop :=
  match l with
  | [] => True
  | o :: t => allowed T s o /\ all_allowed T (fst (s_step (rnm T) s o)) t
  end.

Definition s_start (os : list (list (name * val))) : sst := mkSS [] os.
