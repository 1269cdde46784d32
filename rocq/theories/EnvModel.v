(** Model of the environments of identifier resolution and of the binding
    cache: /repo/src/lib/rjs_environment.c, /repo/src/lib/rjs_decl_env.c,
    the decl/object/global operations of /repo/src/lib/rjs_object_env.c and
    /repo/src/lib/rjs_global_env.c, rjs_function_env_clear in
    /repo/src/lib/rjs_function_env.c, and rjs_resolve_binding with its
    companions in /repo/src/lib/rjs_operation.c:2056-2206.
    ENABLE_BINDING_CACHE is 1 (the default, /repo/Makefile:210).

    Simplifications.  Interned names and values are numbers; a value is only
    copied.  An object behind an object or global environment is its list of
    visible data properties, so that no script code runs inside a lookup.
    Import bindings of module environments are left out.  The collector does
    not run.  [e_scope] is env->script_decl. *)
Require Import List ZArith Lia Bool.
Import ListNotations.
Local Open Scope Z_scope.

(** Interned property keys, and the values stored in bindings. *)
Definition name := nat.
Inductive val := Undef | Val (n : nat).

(** uint16_t fields (rjs_types.h:539-542, rjs_decl_env.h:53-55); 0xffff means
    "not cached". *)
Definition none : Z := 65535.
Definition u16 (z : Z) : Z := z mod 65536.

(** RJS_ValueBinding (rjs_decl_env.h:36-63): the flags, the value, the index
    in the binding vector. *)
Record cell := mkCell {
  c_init : bool; c_immut : bool; c_strict : bool; c_del : bool;
  c_val : val; c_idx : Z }.

(** The operation tables: declarative, function, object and global
    environments.  Module environments behave as declarative ones here. *)
Inductive kind := KDecl | KFunc | KObj (o : nat) | KGlobal (o : nat).

(** RJS_Environment and RJS_DeclEnv (include/rjs_environment.h:56-66,
    include/rjs_decl_env.h:72-79).  [e_cells] is the memory of the bindings of
    this environment ([None]: freed); the hash table and the vector hold
    positions in it, as the C structures hold pointers. *)
Record env := mkEnv {
  e_kind  : kind;
  e_scope : nat;
  e_outer : option nat;
  e_depth : Z;
  e_cells : list (option cell);
  e_hash  : list (name * nat);
  e_vec   : list nat;
  e_cache : bool;
  e_stack : option (list nat);
  e_backs : list nat }.

(** RJS_BindingName (rjs_types.h:537-543). *)
Record ref := mkRef { r_name : name; r_eidx : Z; r_bidx : Z }.

(** The state: environments by number, the binding names of the scripts, and
    the properties of the objects behind object environments. *)
Record st := mkSt { envs : list env; refs : list ref; objs : list (list (name * val)) }.

(** Results.  [OAbort]: a failed assert; [OUB]: a read or write outside an
    object, or through a dangling pointer. *)
Inductive out :=
| OUnit
| OEnv (e : option nat)
| OVal (v : val)
| OBool (b : bool)
| ORefError
| OTypeError
| OAbort
| OUB.

Fixpoint assoc {A} (n : name) (l : list (name * A)) : option A :=
  match l with
  | [] => None
  | (m, a) :: t => if Nat.eqb n m then Some a else assoc n t
  end.

Fixpoint assoc_set {A} (n : name) (a : A) (l : list (name * A)) : list (name * A) :=
  match l with
  | [] => [(n, a)]
  | (m, b) :: t => if Nat.eqb n m then (m, a) :: t else (m, b) :: assoc_set n a t
  end.

Fixpoint assoc_del {A} (n : name) (l : list (name * A)) : list (name * A) :=
  match l with
  | [] => []
  | (m, b) :: t => if Nat.eqb n m then t else (m, b) :: assoc_del n t
  end.

Fixpoint upd {A} (i : nat) (a : A) (l : list A) : list A :=
  match l, i with
  | [], _ => []
  | _ :: t, O => a :: t
  | x :: t, S j => x :: upd j a t
  end.

Definition set_env (s : st) (e : nat) (en : env) : st :=
  mkSt (upd e en (envs s)) (refs s) (objs s).
Definition set_ref (s : st) (r : nat) (rf : ref) : st :=
  mkSt (envs s) (upd r rf (refs s)) (objs s).
Definition set_obj (s : st) (o : nat) (l : list (name * val)) : st :=
  mkSt (envs s) (refs s) (upd o l (objs s)).

Definition obj (s : st) (o : nat) : list (name * val) := nth o (objs s) [].

(** rjs_env_init (rjs_environment.c:35-48) and rjs_decl_env_init
    (rjs_decl_env.c:92-101). *)
Definition env_new (s : st) (k : kind) (scope : nat) (outer : option nat) : env :=
  let depth := match outer with
               | Some o => match nth_error (envs s) o with
                           | Some en => e_depth en + 1
                           | None => 0
                           end
               | None => 0
               end in
  mkEnv k scope outer depth [] [] [] true None [].

(** rjs_env_build_outer_stack (rjs_environment.c:89-114): [depth] steps along
    the outer pointers, adding a back reference to each environment passed.
    [None] stands for following a NULL outer pointer. *)
Fixpoint build (n : nat) (s : st) (self : nat) (outer : option nat) : option (st * list nat) :=
  match n with
  | O => Some (s, [])
  | S n' =>
      match outer with
      | None => None
      | Some o =>
          match nth_error (envs s) o with
          | None => None
          | Some oe =>
              let s1 := set_env s o (mkEnv (e_kind oe) (e_scope oe) (e_outer oe) (e_depth oe)
                                           (e_cells oe) (e_hash oe) (e_vec oe) (e_cache oe)
                                           (e_stack oe) (e_backs oe ++ [self])) in
              match build n' s1 self (e_outer oe) with
              | Some (s2, l) => Some (s2, o :: l)
              | None => None
              end
          end
      end
  end.

Definition build_stack (s : st) (e : nat) : option st :=
  match nth_error (envs s) e with
  | None => None
  | Some en =>
      match e_stack en with
      | Some _ => Some s
      | None =>
          if e_depth en =? 0 then Some s
          else match build (Z.to_nat (e_depth en)) s e (e_outer en) with
               | None => None
               | Some (s1, l) =>
                   match nth_error (envs s1) e with
                   | None => None
                   | Some en1 =>
                       Some (set_env s1 e (mkEnv (e_kind en1) (e_scope en1) (e_outer en1)
                                                 (e_depth en1) (e_cells en1) (e_hash en1)
                                                 (e_vec en1) (e_cache en1) (Some l) (e_backs en1)))
                   end
               end
      end
  end.

(** rjs_env_disable_cache (rjs_environment.c:120-132). *)
Definition uncache (en : env) : env :=
  mkEnv (e_kind en) (e_scope en) (e_outer en) (e_depth en) (e_cells en) (e_hash en)
        (e_vec en) false (e_stack en) (e_backs en).

Definition disable_cache (s : st) (e : nat) : st :=
  match nth_error (envs s) e with
  | None => s
  | Some en =>
      fold_left (fun s' b => match nth_error (envs s') b with
                             | Some be => set_env s' b (uncache be)
                             | None => s'
                             end) (e_backs en) (set_env s e (uncache en))
  end.

(** rjs_decl_env_lookup_binding (rjs_decl_env.c:443-472); [pe]: the caller
    asks for the hash table position. *)
Inductive lres := Found (b : nat) | Missing | Wild.

Definition lookup (s : st) (e r : nat) (pe : bool) : st * lres :=
  match nth_error (envs s) e, nth_error (refs s) r with
  | Some en, Some rf =>
      if e_cache en && negb pe && negb (r_bidx rf =? none) then
        match nth_error (e_vec en) (Z.to_nat (r_bidx rf)) with
        | Some b => (s, Found b)
        | None => (s, Wild)
        end
      else
        match assoc (r_name rf) (e_hash en) with
        | None => (s, Missing)
        | Some b =>
            if e_cache en && negb (r_eidx rf =? none) then
              match nth_error (e_cells en) b with
              | Some (Some c) =>
                  (set_ref s r (mkRef (r_name rf) (r_eidx rf) (c_idx c)), Found b)
              | _ => (s, Wild)
              end
            else (s, Found b)
        end
  | _, _ => (s, Wild)
  end.

(** Reading and writing through a binding pointer. *)
Definition deref (s : st) (e b : nat) : option cell :=
  match nth_error (envs s) e with
  | Some en => match nth_error (e_cells en) b with
               | Some (Some c) => Some c
               | _ => None
               end
  | None => None
  end.

Definition store (s : st) (e b : nat) (c : option cell) : st :=
  match nth_error (envs s) e with
  | Some en =>
      set_env s e (mkEnv (e_kind en) (e_scope en) (e_outer en) (e_depth en)
                         (upd b c (e_cells en)) (e_hash en) (e_vec en) (e_cache en)
                         (e_stack en) (e_backs en))
  | None => s
  end.

(** rjs_decl_env_add_binding (rjs_decl_env.c:482-498). *)
Definition add_binding (s : st) (e : nat) (n : name) (c : cell) : st :=
  match nth_error (envs s) e with
  | Some en =>
      let b := length (e_cells en) in
      let c' := if e_cache en
                then mkCell (c_init c) (c_immut c) (c_strict c) (c_del c) (c_val c)
                            (u16 (Z.of_nat (length (e_vec en))))
                else c in
      set_env s e (mkEnv (e_kind en) (e_scope en) (e_outer en) (e_depth en)
                         (e_cells en ++ [Some c']) (e_hash en ++ [(n, b)])
                         (if e_cache en then e_vec en ++ [b] else e_vec en)
                         (e_cache en) (e_stack en) (e_backs en))
  | None => s
  end.

Definition rname (s : st) (r : nat) : name :=
  match nth_error (refs s) r with Some rf => r_name rf | None => O end.

(** rjs_decl_env_op_create_mutable_binding and
    rjs_decl_env_op_create_immutable_binding (rjs_decl_env.c:192-242). *)
Definition decl_create (s : st) (e r : nat) (immut strict del : bool) : st * out :=
  match lookup s e r true with
  | (s1, Missing) =>
      (add_binding s1 e (rname s1 r) (mkCell false immut strict del Undef 0), OUnit)
  | (s1, Found _) => (s1, OAbort)
  | (s1, Wild) => (s1, OUB)
  end.

(** rjs_decl_env_op_initialize_binding (rjs_decl_env.c:253-268). *)
Definition decl_init (s : st) (e r : nat) (v : val) : st * out :=
  match lookup s e r false with
  | (s1, Found b) =>
      match deref s1 e b with
      | Some c =>
          if c_init c then (s1, OAbort)
          else (store s1 e b (Some (mkCell true (c_immut c) (c_strict c) (c_del c) v (c_idx c))), OUnit)
      | None => (s1, OUB)
      end
  | (s1, Missing) => (s1, OAbort)
  | (s1, Wild) => (s1, OUB)
  end.

(** rjs_decl_env_op_set_mutable_binding (rjs_decl_env.c:280-314). *)
Definition decl_set (s : st) (e r : nat) (v : val) (strict : bool) : st * out :=
  match lookup s e r false with
  | (s1, Missing) =>
      if strict then (s1, ORefError)
      else
        match decl_create s1 e r false false true with
        | (s2, OUnit) => decl_init s2 e r v
        | (s2, o) => (s2, o)
        end
  | (s1, Found b) =>
      match deref s1 e b with
      | Some c =>
          let strict' := c_strict c || strict in
          if negb (c_init c) then (s1, ORefError)
          else if c_immut c then
            if strict' then (s1, OTypeError) else (s1, OUnit)
          else (store s1 e b (Some (mkCell true (c_immut c) (c_strict c) (c_del c) v (c_idx c))), OUnit)
      | None => (s1, OUB)
      end
  | (s1, Wild) => (s1, OUB)
  end.

(** rjs_decl_env_op_get_binding_value (rjs_decl_env.c:326-341). *)
Definition decl_get (s : st) (e r : nat) : st * out :=
  match lookup s e r false with
  | (s1, Found b) =>
      match deref s1 e b with
      | Some c => if c_init c then (s1, OVal (c_val c)) else (s1, ORefError)
      | None => (s1, OUB)
      end
  | (s1, Missing) => (s1, OAbort)
  | (s1, Wild) => (s1, OUB)
  end.

(** rjs_decl_env_op_delete_binding (rjs_decl_env.c:351-370): the hash entry
    goes and the binding is freed; the vector keeps its pointer. *)
Definition decl_delete (s : st) (e r : nat) : st * out :=
  match lookup s e r true with
  | (s1, Found b) =>
      match deref s1 e b with
      | Some c =>
          if negb (c_del c) then (s1, OBool false)
          else
            match nth_error (envs s1) e with
            | Some en =>
                (set_env s1 e (mkEnv (e_kind en) (e_scope en) (e_outer en) (e_depth en)
                                     (upd b None (e_cells en)) (assoc_del (rname s1 r) (e_hash en))
                                     (e_vec en) (e_cache en) (e_stack en) (e_backs en)), OBool true)
            | None => (s1, OUB)
            end
      | None => (s1, OUB)
      end
  | (s1, Missing) => (s1, OAbort)
  | (s1, Wild) => (s1, OUB)
  end.

(** rjs_decl_env_op_has_binding (rjs_decl_env.c:175-181). *)
Definition decl_has (s : st) (e r : nat) : st * option bool :=
  match lookup s e r false with
  | (s1, Found _) => (s1, Some true)
  | (s1, Missing) => (s1, Some false)
  | (s1, Wild) => (s1, None)
  end.

(** object_env_op_has_binding (rjs_object_env.c:52-91), on plain data
    properties. *)
Definition obj_has (s : st) (o r : nat) : bool :=
  match assoc (rname s r) (obj s o) with Some _ => true | None => false end.

(** object_env_op_set_mutable_binding (rjs_object_env.c:136-158). *)
Definition obj_set (s : st) (o r : nat) (v : val) (strict : bool) : st * out :=
  if negb (obj_has s o r) && strict then (s, ORefError)
  else (set_obj s o (assoc_set (rname s r) v (obj s o)), OUnit).

(** object_env_op_get_binding_value (rjs_object_env.c:161-189). *)
Definition obj_get (s : st) (o r : nat) (strict : bool) : st * out :=
  match assoc (rname s r) (obj s o) with
  | None => if strict then (s, ORefError) else (s, OVal Undef)
  | Some v => (s, OVal v)
  end.

(** Dispatch over the operation tables; global environments try their
    declarative part first (global_env_op_... , rjs_global_env.c:66-143). *)
Definition has_binding (s : st) (e r : nat) : st * option bool :=
  match nth_error (envs s) e with
  | None => (s, None)
  | Some en =>
      match e_kind en with
      | KDecl | KFunc => decl_has s e r
      | KObj o => (s, Some (obj_has s o r))
      | KGlobal o =>
          match decl_has s e r with
          | (s1, Some false) => (s1, Some (obj_has s1 o r))
          | x => x
          end
      end
  end.

Definition global_env_do (s : st) (e r : nat) (d : st -> st * out) (f : st -> st * out) : st * out :=
  match decl_has s e r with
  | (s1, Some true) => d s1
  | (s1, Some false) => f s1
  | (s1, None) => (s1, OUB)
  end.

Definition create_binding (s : st) (e r : nat) (immut strict del : bool) : st * out :=
  match nth_error (envs s) e with
  | None => (s, OUB)
  | Some en =>
      match e_kind en with
      | KDecl | KFunc => decl_create s e r immut strict del
      | KObj o =>
          if immut then (s, OAbort)
          else (set_obj s o (assoc_set (rname s r) Undef (obj s o)), OUnit)
      | KGlobal o =>
          global_env_do s e r (fun s1 => (s1, ORefError))
                        (fun s1 => decl_create s1 e r immut strict del)
      end
  end.

Definition init_binding (s : st) (e r : nat) (v : val) : st * out :=
  match nth_error (envs s) e with
  | None => (s, OUB)
  | Some en =>
      match e_kind en with
      | KDecl | KFunc => decl_init s e r v
      | KObj o => obj_set s o r v false
      | KGlobal o => global_env_do s e r (fun s1 => decl_init s1 e r v)
                                   (fun s1 => obj_set s1 o r v false)
      end
  end.

Definition set_binding (s : st) (e r : nat) (v : val) (strict : bool) : st * out :=
  match nth_error (envs s) e with
  | None => (s, OUB)
  | Some en =>
      match e_kind en with
      | KDecl | KFunc => decl_set s e r v strict
      | KObj o => obj_set s o r v strict
      | KGlobal o => global_env_do s e r (fun s1 => decl_set s1 e r v strict)
                                   (fun s1 => obj_set s1 o r v strict)
      end
  end.

Definition get_binding (s : st) (e r : nat) (strict : bool) : st * out :=
  match nth_error (envs s) e with
  | None => (s, OUB)
  | Some en =>
      match e_kind en with
      | KDecl | KFunc => decl_get s e r
      | KObj o => obj_get s o r strict
      | KGlobal o => global_env_do s e r (fun s1 => decl_get s1 e r)
                                   (fun s1 => obj_get s1 o r strict)
      end
  end.

(** rjs_env_delete_binding over the tables (rjs_delete_binding,
    rjs_operation.c:2189-2206, returns before the line that would disable the
    cache).  Object properties are configurable here. *)
Definition delete_binding (s : st) (e r : nat) : st * out :=
  match nth_error (envs s) e with
  | None => (s, OUB)
  | Some en =>
      match e_kind en with
      | KDecl | KFunc => decl_delete s e r
      | KObj o => (set_obj s o (assoc_del (rname s r) (obj s o)), OBool true)
      | KGlobal o =>
          global_env_do s e r (fun s1 => decl_delete s1 e r)
            (fun s1 => if obj_has s1 o r
                       then (set_obj s1 o (assoc_del (rname s1 r) (obj s1 o)), OBool true)
                       else (s1, OBool false))
      end
  end.

(** The loop of rjs_resolve_binding (rjs_operation.c:2093-2106); [need] is
    need_cache.  [None]: undefined behaviour or no fuel left. *)
Fixpoint walk (fuel : nat) (s : st) (e : option nat) (r : nat) (need : bool)
  : st * option (option nat * bool) :=
  match fuel with
  | O => (s, None)
  | S fuel' =>
      match e with
      | None => (s, Some (None, need))
      | Some i =>
          match nth_error (envs s) i with
          | None => (s, None)
          | Some en =>
              let need' := match e_kind en with KObj _ => false | _ => need end in
              match has_binding s i r with
              | (s1, None) => (s1, None)
              | (s1, Some true) => (s1, Some (Some i, need'))
              | (s1, Some false) => walk fuel' s1 (e_outer en) r need'
              end
          end
      end
  end.

(** rjs_resolve_binding (rjs_operation.c:2065-2125). *)
Definition resolve (s : st) (e r : nat) : st * out :=
  match nth_error (envs s) e, nth_error (refs s) r with
  | Some en, Some rf =>
      if negb (r_eidx rf =? none) && e_cache en then
        if r_eidx rf =? 0 then (s, OEnv (Some e))
        else
          match build_stack s e with
          | None => (s, OUB)
          | Some s1 =>
              match nth_error (envs s1) e with
              | Some en1 =>
                  match e_stack en1 with
                  | Some l =>
                      match nth_error l (Z.to_nat (r_eidx rf - 1)) with
                      | Some i => (s1, OEnv (Some i))
                      | None => (s1, OUB)
                      end
                  | None => (s1, OUB)
                  end
              | None => (s1, OUB)
              end
          end
      else
        match walk (S (S (length (envs s)))) s (Some e) r (e_cache en) with
        | (s1, None) => (s1, OUB)
        | (s1, Some (None, _)) => (s1, OEnv None)
        | (s1, Some (Some i, need)) =>
            if need then
              match nth_error (envs s1) e, nth_error (envs s1) i, nth_error (refs s1) r with
              | Some bot, Some ie, Some rf1 =>
                  let s2 := set_ref s1 r (mkRef (r_name rf1) (u16 (e_depth bot - e_depth ie))
                                                (r_bidx rf1)) in
                  match build_stack s2 e with
                  | Some s3 => (s3, OEnv (Some i))
                  | None => (s2, OUB)
                  end
              | _, _, _ => (s1, OUB)
              end
            else (s1, OEnv (Some i))
        end
  | _, _ => (s, OUB)
  end.

(** rjs_env_deinit and rjs_decl_env_clear (rjs_environment.c:55-80,
    rjs_decl_env.c:420-431), called for a tail call of the running function
    (rjs_native_stack.c:1151-1189) through rjs_function_env_clear
    (rjs_function_env.c:236-255), which takes the environment for a function
    environment whatever it is. *)
Definition clear (s : st) (e : nat) : st * out :=
  match nth_error (envs s) e with
  | None => (s, OUB)
  | Some en =>
      match e_kind en with
      | KFunc =>
          let drop := map (fun x => mkEnv (e_kind x) (e_scope x) (e_outer x) (e_depth x)
                                      (e_cells x) (e_hash x) (e_vec x) (e_cache x) (e_stack x)
                                      (filter (fun b => negb (Nat.eqb b e)) (e_backs x))) (envs s) in
          let s1 := mkSt drop (refs s) (objs s) in
          (set_env s1 e (env_new s1 (e_kind en) (e_scope en) (e_outer en)), OUnit)
      | _ => (s, OUB)
      end
  end.

(** The operations the byte code interpreter issues. *)
Inductive op :=
| New (k : kind) (scope : nat) (outer : option nat)
| Create (e r : nat) (immut strict del : bool)
| Init (e r : nat) (v : val)
| Resolve (e r : nat)
| Get (e r : nat) (strict : bool)
| Put (e r : nat) (v : val) (strict : bool)
| Delete (e r : nat)
| Disable (e : nat)
| Clear (e : nat)
| ObjPut (o : nat) (n : name) (v : val)
| ObjDel (o : nat) (n : name).

Definition step (s : st) (o : op) : st * out :=
  match o with
  | New k sc outer =>
      (mkSt (envs s ++ [env_new s k sc outer]) (refs s) (objs s),
       OEnv (Some (length (envs s))))
  | Create e r i t d => create_binding s e r i t d
  | Init e r v => init_binding s e r v
  | Resolve e r => resolve s e r
  | Get e r t => get_binding s e r t
  | Put e r v t => set_binding s e r v t
  | Delete e r => delete_binding s e r
  | Disable e => (disable_cache s e, OUnit)
  | Clear e => clear s e
  | ObjPut o n v => (set_obj s o (assoc_set n v (obj s o)), OUnit)
  | ObjDel o n => (set_obj s o (assoc_del n (obj s o)), OUnit)
  end.

Fixpoint run (s : st) (l : list op) : list out :=
  match l with
  | [] => []
  | o :: t => let (s', x) := step s o in x :: run s' t
  end.

(** The start: no environments, the binding names of the scripts with empty
    caches (rjs_binding_name_init, include/ratjs/rjs_environment.h:48-60). *)
Definition start (names : list name) (os : list (list (name * val))) : st :=
  mkSt [] (map (fun n => mkRef n none none) names) os.
