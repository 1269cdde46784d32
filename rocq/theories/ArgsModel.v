(** Model of the mapped arguments object.

    Source: /repo/src/lib/rjs_arguments_object.c lines 54-290 (operations) and
    355-444 (rjs_mapped_arguments_object_new), and the computation of
    [param_index] in /repo/src/lib/rjs_code_gen_inc.c lines 160-190.
    The inherited operations are those of rjs_object.c lines 907-933 (define),
    984-1039 (get), 1041-1122 (set) and 1134-1162 (delete); the change of one
    property is ObjModel (validate_and_apply_property).

    Simplifications.  The properties are a function from keys; how they are
    stored is C05-C08.  Keys are resolved (C04).  The bindings of the
    parameters are initialised and always present (they are, unless a tail call
    empties the environment, C87).  A getter, a setter, the prototype or another
    receiver that is asked is a result; what it does are further operations. *)
From Coq Require Import List ZArith Bool.
Import ListNotations.
From Verif Require Import StoreModel ObjModel.
Local Open Scope Z_scope.

(** RJS_ArgumentsObject: [names] (None is undefined), properties, extensible;
    and the values of the bindings in [env]. *)
Record args := mkA { names : list (option Z); props : key -> option prop; aext : bool; env : Z -> val }.

Definition set_at {A} (f : key -> A) (k : key) (x : A) : key -> A := fun j => if key_eqb k j then x else f j.
Definition set_env (f : Z -> val) (p : Z) (x : val) : Z -> val := fun q => if p =? q then x else f q.
Fixpoint clear_at (l : list (option Z)) (i : nat) : list (option Z) :=
  match l, i with
  | [], _ => []
  | _ :: t, O => None :: t
  | x :: t, S i => x :: clear_at t i
  end.

(** arguments_has_property, lines 54-78: the index and the name; an index is not
    negative *)
Definition mapped (a : args) (k : key) : option (nat * Z) :=
  match k with
  | KIdx i =>
      if negb ((0 <=? i) && (i <? Z.of_nat (length (names a)))) then None
      else match nth (Z.to_nat i) (names a) None with
           | Some p => Some (Z.to_nat i, p)
           | None => None
           end
  | KName _ => None
  end.

(** arguments_get, arguments_set, arguments_delete, lines 80-131 *)
Definition a_get (a : args) (p : Z) : val := env a p.
Definition a_set (a : args) (p : Z) (v : val) : args := mkA (names a) (props a) (aext a) (set_env (env a) p v).
Definition a_del (a : args) (i : nat) : args := mkA (clear_at (names a) i) (props a) (aext a) (env a).

Definition with_val (d : desc) (v : val) : desc :=
  {| d_val := Some v; d_wr := d_wr d; d_get := d_get d; d_set := d_set d; d_en := d_en d; d_cf := d_cf d |}.

(** arguments_object_op_get_own_property, lines 133-150 *)
Definition own (a : args) (k : key) : option desc :=
  match props a k with
  | None => None
  | Some p =>
      match mapped a k with
      | Some (_, n) => Some (with_val (desc_of p) (a_get a n))
      | None => Some (desc_of p)
      end
  end.

(** rjs_ordinary_object_op_define_own_property, rjs_object.c:907-933, which
    asks the object itself for the present property *)
Definition ordinary_define (a : args) (k : key) (d : desc) : args * bool :=
  match own a k, props a k with
  | Some c, Some p =>
      if no_flags d then (a, true)
      else if refused d c then (a, false)
      else (mkA (names a) (set_at (props a) k (Some (apply_desc p d c))) (aext a) (env a), true)
  | _, _ =>
      if aext a then (mkA (names a) (set_at (props a) k (Some (new_prop d))) (aext a) (env a), true)
      else (a, false)
  end.

(** arguments_object_op_define_own_property, lines 152-204 *)
Definition define (a : args) (k : key) (d : desc) : args * bool :=
  let m := mapped a k in
  let d' :=
    match m with
    | Some (_, n) =>
        if is_data d && negb (is_some (d_val d)) && is_some (d_wr d) && negb (flag (d_wr d))
        then with_val d (a_get a n) else d
    | None => d
    end in
  let '(a, r) := ordinary_define a k d' in
  if r then
    match m with
    | Some (i, n) =>
        if is_acc d then (a_del a i, true)
        else
          let a := match d_val d with Some v => a_set a n v | None => a end in
          let a := if is_some (d_wr d) && negb (flag (d_wr d)) then a_del a i else a in
          (a, true)
    | None => (a, true)
    end
  else (a, false).

(** Results; [RProto] the prototype is asked, [ROther] the receiver is. *)
Inductive ans := ABool (b : bool) | AVal (v : val) | ACall (f : val) | AProto | AOther | ADesc (d : option desc).

(** arguments_object_op_get, lines 206-224; rjs_object.c:984-1039 *)
Definition get (a : args) (k : key) : ans :=
  match mapped a k with
  | Some (_, n) => AVal (a_get a n)
  | None =>
      match own a k with
      | None => AProto
      | Some d =>
          if is_data d then AVal (or_undef (d_val d))
          else match or_undef (d_get d) with Undef => AVal Undef | f => ACall f end
      end
  end.

Definition value_only (v : val) : desc :=
  {| d_val := Some v; d_wr := None; d_get := None; d_set := None; d_en := None; d_cf := None |}.

(** arguments_object_op_set, lines 226-246; [self]: the receiver is the object;
    [root]: the object has no prototype *)
Definition set (a : args) (k : key) (v : val) (self root : bool) : args * ans :=
  let a := if self then match mapped a k with Some (_, n) => a_set a n v | None => a end else a in
  match own a k with
  | None =>
      if root then
        if self then let '(a, r) := define a k (all_true v) in (a, ABool r) else (a, AOther)
      else (a, AProto)
  | Some d =>
      if is_data d then
        if negb (flag (d_wr d)) then (a, ABool false)
        else if self then
          match own a k with
          | Some e =>
              if is_acc e then (a, ABool false)
              else if negb (flag (d_wr e)) then (a, ABool false)
              else let '(a, r) := define a k (value_only v) in (a, ABool r)
          | None => let '(a, r) := define a k (all_true v) in (a, ABool r)
          end
        else (a, AOther)
      else match or_undef (d_set d) with Undef => (a, ABool false) | f => (a, ACall f) end
  end.

(** arguments_object_op_delete, lines 248-267; rjs_object.c:1134-1162 *)
Definition delete (a : args) (k : key) : args * bool :=
  let m := mapped a k in
  let '(a, r) :=
    match own a k with
    | None => (a, true)
    | Some d =>
        if flag (d_cf d) then (mkA (names a) (set_at (props a) k None) (aext a) (env a), true) else (a, false)
    end in
  if r then match m with Some (i, _) => (a_del a i, true) | None => (a, true) end else (a, false).

(** What scripts do to the object and to the parameters. *)
Inductive op :=
| Own (k : key) | Get (k : key) | Define (k : key) (d : desc) | Set_ (k : key) (v : val) (self root : bool)
| Delete (k : key) | NoExt | Read (p : Z) | Write (p : Z) (v : val).
Definition step (a : args) (o : op) : args * ans :=
  match o with
  | Own k => (a, ADesc (own a k))
  | Get k => (a, get a k)
  | Define k d => let '(a, r) := define a k d in (a, ABool r)
  | Set_ k v s r => set a k v s r
  | Delete k => let '(a, r) := delete a k in (a, ABool r)
  | NoExt => (mkA (names a) (props a) false (env a), ABool true)
  | Read p => (a, AVal (env a p))
  | Write p v => (a_set a p v, ABool true)
  end.

(** rjs_code_gen_inc.c:169-187: the index of the last parameter of that name *)
Fixpoint param_index (params : list Z) (p : Z) (curr : nat) : option nat :=
  match params with
  | [] => None
  | x :: r =>
      match param_index r p (S curr) with
      | Some i => Some i
      | None => if x =? p then Some curr else None
      end
  end.
Fixpoint put_name (l : list (option Z)) (i : nat) (p : Z) : list (option Z) :=
  match l, i with
  | [], _ => []
  | _ :: t, O => Some p :: t
  | x :: t, S i => x :: put_name t i p
  end.

(** rjs_mapped_arguments_object_new, lines 366-444; [bindings] are the names of
    the parameter bindings, each once; [vals] the arguments.  The named
    properties length, @@iterator and callee are [rest]. *)
Definition data (v : val) : prop :=
  {| acc := false; wr := true; en := true; cf := true; pval := v; pget := Undef; pset := Undef |}.
Definition new_args (params bindings : list Z) (vals : list val) (rest : nkey -> option prop) (e : Z -> val) : args :=
  let names :=
    fold_left (fun l p => match param_index params p 0 with
                          | Some i => if Nat.ltb i (length vals) then put_name l i p else l
                          | None => l
                          end) bindings (repeat None (length vals)) in
  mkA names
    (fun k => match k with
              | KIdx i => if (0 <=? i) && (i <? Z.of_nat (length vals)) then Some (data (nth (Z.to_nat i) vals Undef)) else None
              | KName n => rest n
              end) true e.
