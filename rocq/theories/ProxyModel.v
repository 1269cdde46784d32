(** Model of the internal methods of proxy objects,
    src/lib/rjs_proxy_object_opt.c:52-957, with the helpers
    rjs_complete_property_descriptor (src/lib/rjs_operation.c:435-470) and
    rjs_is_compatible_property_descriptor (src/lib/rjs_object.c:892-896).

    A target is an object of the heap of ObjModel.v or another proxy.  The
    handlers are the script: looking a trap up and calling it is one event of a
    given list, which says what the script did (operations on the objects of the
    heap, proxies revoked) and what it answered.  So are reading the object
    returned by a trap, getters, setters and whatever is found in the prototype
    chain of the target.  RJS_ERR is [Thrown]; where the code tests a RJS_Result
    only for truth, RJS_ERR counts as true and the exception is lost ([lost]).
    [Stop]: the events ended or do not fit, or the base object model is undefined.
    Not modelled: [[Call]] and [[Construct]], the value stack, the hash table of
    the keys (a list here, C11), an allocation of up to 2^53-1 keys. *)
From Coq Require Import ZArith List Bool.
Import ListNotations.
From Verif Require Import StrModel StoreModel ObjModel.
Local Open Scope Z_scope.

(** what the script answers *)
Inductive ans :=
  | NoTrap                       (* the handler has no such method *)
  | Throws
  | Bool (b : bool)              (* a value, after ToBoolean *)
  | Val (v : val)
  | Ref (p : option nat)         (* an object or null *)
  | AnObject                     (* an object, read later *)
  | Descr (d : desc)             (* what ToPropertyDescriptor reads from it *)
  | KeyList (ks : list key)      (* the strings and symbols read from it *)
  | Bad                          (* a value of a wrong type *)
  | Continue.                    (* the prototype chain does not have the property *)
Record event := { e_ops : list oop; e_revoke : list nat; e_ans : ans }.

Record pst := { hp : heap; revoked : list nat; evs : list event; lost : bool }.
Inductive R {A : Type} := Ret (a : A) (s : pst) | Thrown (s : pst) | Stop.
Arguments R : clear implicits.
Definition M (A : Type) := pst -> R A.
Definition ret {A} (a : A) : M A := fun s => Ret a s.
Definition throw {A} : M A := fun s => Thrown s.
Definition stop {A} : M A := fun _ => Stop.
Definition mbind {A B} (m : M A) (f : A -> M B) : M B :=
  fun s => match m s with Ret a s' => f a s' | Thrown s' => Thrown s' | Stop => Stop end.
Notation "'let!' x := m 'in' k" := (mbind m (fun x => k)) (at level 200, x pattern, right associativity).

(** user code *)
Definition ask : M ans := fun s =>
  match evs s with
  | [] => Stop
  | e :: r =>
      match o_run (hp s) (e_ops e) with
      | Done h =>
          let s' := {| hp := h; revoked := e_revoke e ++ revoked s; evs := r; lost := lost s |} in
          match e_ans e with Throws => Thrown s' | a => Ret a s' end
      | _ => Stop
      end
  end.
(** the truth value of a RJS_Result: RJS_ERR is -1 *)
Definition truth (m : M bool) : M bool := fun s =>
  match m s with
  | Thrown s' => Ret true {| hp := hp s'; revoked := revoked s'; evs := evs s'; lost := true |}
  | r => r
  end.

(** RJS_ProxyObject: the target; revocation sets it to null *)
Inductive tgt := TObj (x : nat) | TProxy (p : nat) (t : tgt).
Definition is_revoked (p : nat) : M bool := fun s => Ret (existsb (Nat.eqb p) (revoked s)) s.

(** an ordinary object or array *)
Definition the_obj (x : nat) : M obj := fun s =>
  match nth_error (hp s) x with
  | Some o => match kind o with Exotic => Stop | _ => Ret o s end
  | None => Stop
  end.
Definition from_sres {A} (r : sres A) : M A := fun s => match r with SOk a => Ret a s | _ => Stop end.
Definition do_op (op : oop) : M bool := fun s =>
  match o_step (hp s) op with
  | Done (h, r) =>
      let s' := {| hp := h; revoked := revoked s; evs := evs s; lost := lost s |} in
      match r with RTrue => Ret true s' | RFalse => Ret false s' | RThrow => Thrown s' | _ => Stop end
  | _ => Stop
  end.

(** the trap of a proxy: lines 60-78 and the same lines of the other functions *)
Definition with_trap {A} (p : nat) (forward : M A) (trapped : ans -> M A) : M A :=
  let! r := is_revoked p in
  if r : bool then throw
  else let! a := ask in match a with NoTrap => forward | _ => trapped a end.

(** proxy_object_op_is_extensible, lines 163-206 *)
Fixpoint is_ext (t : tgt) : M bool :=
  match t with
  | TObj x => let! o := the_obj x in ret (ext o)
  | TProxy p t' =>
      with_trap p (is_ext t') (fun a =>
        match a with
        | Bool b1 => let! b2 := is_ext t' in if Bool.eqb b1 b2 then ret b1 else throw
        | _ => stop
        end)
  end.

(** proxy_object_op_get_prototype_of, lines 52-104 *)
Fixpoint get_proto (t : tgt) : M (option nat) :=
  match t with
  | TObj x => let! o := the_obj x in ret (proto o)
  | TProxy p t' =>
      with_trap p (get_proto t') (fun a =>
        match a with
        | Bad => throw
        | Ref r =>
            let! e := truth (is_ext t') in
            if e : bool then ret r
            else let! q := get_proto t' in
                 if proto_eqb r q then ret r else throw
        | _ => stop
        end)
  end.

(** proxy_object_op_set_prototype_of, lines 107-160 *)
Fixpoint set_proto_of (t : tgt) (q : option nat) : M bool :=
  match t with
  | TObj x => let! _ := the_obj x in do_op (SetProto x q)
  | TProxy p t' =>
      with_trap p (set_proto_of t' q) (fun a =>
        match a with
        | Bool false => ret false
        | Bool true =>
            let! e := is_ext t' in
            if e : bool then ret true
            else let! r := get_proto t' in
                 if proto_eqb q r then ret true else throw
        | _ => stop
        end)
  end.

(** proxy_object_op_prevent_extensions, lines 209-254 *)
Fixpoint prevent (t : tgt) : M bool :=
  match t with
  | TObj x => let! _ := the_obj x in do_op (Prevent x)
  | TProxy p t' =>
      with_trap p (prevent t') (fun a =>
        match a with
        | Bool b =>
            if b then let! e := is_ext t' in if e : bool then throw else ret true
            else ret false
        | _ => stop
        end)
  end.

(** rjs_complete_property_descriptor *)
Definition complete (d : desc) : desc :=
  if is_generic d || is_data d then
    {| d_val := Some (or_undef (d_val d)); d_wr := Some (flag (d_wr d)); d_get := d_get d; d_set := d_set d;
       d_en := Some (flag (d_en d)); d_cf := Some (flag (d_cf d)) |}
  else
    {| d_val := d_val d; d_wr := d_wr d; d_get := Some (or_undef (d_get d)); d_set := Some (or_undef (d_set d));
       d_en := Some (flag (d_en d)); d_cf := Some (flag (d_cf d)) |}.
(** rjs_is_compatible_property_descriptor: validate_and_apply_property without an object *)
Definition compatible (e : bool) (d : desc) (c : option desc) : bool :=
  match c with None => e | Some c => no_flags d || negb (refused d c) end.

(** proxy_object_op_get_own_property, lines 257-367 *)
Fixpoint get_own_of (t : tgt) (k : key) : M (option desc) :=
  match t with
  | TObj x => let! o := the_obj x in from_sres (get_own o k)
  | TProxy p t' =>
      with_trap p (get_own_of t' k) (fun a =>
        match a with
        | Bad => throw
        | Val Undef =>
            let! c := get_own_of t' k in
            match c with
            | None => ret None
            | Some cd =>
                if negb (flag (d_cf cd)) then throw
                else let! e := is_ext t' in
                     if e : bool then ret None else throw
            end
        | AnObject =>
            let! c := get_own_of t' k in
            let! e := is_ext t' in
            let! b := ask in
            match b with
            | Descr d0 =>
                if is_acc d0 && is_data d0 then throw
                else
                  let d := complete d0 in
                  if negb (compatible e d c) then throw
                  else if negb (flag (d_cf d)) then
                    match c with
                    | None => throw
                    | Some cd =>
                        if flag (d_cf cd) then throw
                        else if negb (flag (d_wr d)) && flag (d_wr cd) then throw
                        else ret (Some d)
                    end
                  else ret (Some d)
            | _ => stop
            end
        | _ => stop
        end)
  end.

(** proxy_object_op_define_own_property, lines 370-463; [cv]: see ObjModel.v *)
Fixpoint define_of (t : tgt) (k : key) (d : desc) (cv : option Z) : M bool :=
  match t with
  | TObj x => let! _ := the_obj x in do_op (Define x k d cv)
  | TProxy p t' =>
      with_trap p (define_of t' k d cv) (fun a =>
        match a with
        | Bool false => ret false
        | Bool true =>
            let! c := get_own_of t' k in
            let! e := is_ext t' in
            let set_cfg_false := is_some (d_cf d) && negb (flag (d_cf d)) in
            match c with
            | None => if negb e || set_cfg_false then throw else ret true
            | Some cd =>
                if negb (compatible e d c) then throw
                else if set_cfg_false && flag (d_cf cd) then throw
                else if is_data cd && negb (flag (d_cf cd)) && flag (d_wr cd) && (is_some (d_wr d) && negb (flag (d_wr d))) then throw
                else ret true
            end
        | _ => stop
        end)
  end.

(** proxy_object_op_has_property, lines 466-524; rjs_ordinary_object_op_has_property,
    src/lib/rjs_object.c:944-974 *)
Fixpoint has_of (t : tgt) (k : key) : M bool :=
  match t with
  | TObj x =>
      let! o := the_obj x in
      let! c := from_sres (get_own o k) in
      match c with
      | Some _ => ret true
      | None => match proto o with
                | None => ret false
                | Some _ => let! a := ask in match a with Bool b => ret b | _ => stop end
                end
      end
  | TProxy p t' =>
      with_trap p (has_of t' k) (fun a =>
        match a with
        | Bool true => ret true
        | Bool false =>
            let! c := get_own_of t' k in
            match c with
            | None => ret false
            | Some cd =>
                if negb (flag (d_cf cd)) then throw
                else let! e := truth (is_ext t') in
                     if e : bool then ret false else throw
            end
        | _ => stop
        end)
  end.

(** proxy_object_op_get, lines 527-594; rjs_ordinary_object_op_get,
    src/lib/rjs_object.c:986-1030 *)
Fixpoint get_of (t : tgt) (k : key) : M val :=
  match t with
  | TObj x =>
      let! o := the_obj x in
      let! c := from_sres (get_own o k) in
      match c with
      | None => match proto o with
                | None => ret Undef
                | Some _ => let! a := ask in match a with Val v => ret v | _ => stop end
                end
      | Some d =>
          if is_data d then ret (or_undef (d_val d))
          else match or_undef (d_get d) with
               | Undef => ret Undef
               | _ => let! a := ask in match a with Val v => ret v | _ => stop end
               end
      end
  | TProxy p t' =>
      with_trap p (get_of t' k) (fun a =>
        match a with
        | Val v =>
            let! c := get_own_of t' k in
            match c with
            | None => ret v
            | Some cd =>
                if flag (d_cf cd) then ret v
                else if is_data cd && negb (flag (d_wr cd)) && negb (val_eqb v (or_undef (d_val cd))) then throw
                else if is_acc cd && val_eqb (or_undef (d_get cd)) Undef && negb (val_eqb v Undef) then throw
                else ret v
            end
        | _ => stop
        end)
  end.

(** rjs_ordinary_object_op_set, lines 1041-1121: the receiver *)
Definition set_recv (rcv : option tgt) (k : key) (v : val) (cv : option Z) (writable : bool) : M bool :=
  if negb writable then ret false
  else match rcv with
       | None => ret false
       | Some r =>
           let! c := get_own_of r k in
           match c with
           | Some ed =>
               if is_acc ed then ret false
               else if negb (flag (d_wr ed)) then ret false
               else define_of r k {| d_val := Some v; d_wr := None; d_get := None; d_set := None; d_en := None; d_cf := None |} cv
           | None => define_of r k (all_true v) cv
           end
       end.
(** proxy_object_op_set, lines 597-674 *)
Fixpoint set_of (t : tgt) (k : key) (v : val) (rcv : option tgt) (cv : option Z) : M bool :=
  match t with
  | TObj x =>
      let! o := the_obj x in
      let! c := from_sres (get_own o k) in
      match c with
      | None => match proto o with
                | None => set_recv rcv k v cv true
                | Some _ =>
                    let! a := ask in
                    match a with Bool b => ret b | Continue => set_recv rcv k v cv true | _ => stop end
                end
      | Some d =>
          if is_data d then set_recv rcv k v cv (flag (d_wr d))
          else match or_undef (d_set d) with
               | Undef => ret false
               | _ => let! a := ask in match a with Val _ => ret true | _ => stop end
               end
      end
  | TProxy p t' =>
      with_trap p (set_of t' k v rcv cv) (fun a =>
        match a with
        | Bool false => ret false
        | Bool true =>
            let! c := get_own_of t' k in
            match c with
            | None => ret true
            | Some cd =>
                if flag (d_cf cd) then ret true
                else if is_data cd && negb (flag (d_wr cd)) && negb (val_eqb v (or_undef (d_val cd))) then throw
                else if is_acc cd && val_eqb (or_undef (d_set cd)) Undef then throw
                else ret true
            end
        | _ => stop
        end)
  end.

(** proxy_object_op_delete, lines 677-742 *)
Fixpoint delete_of (t : tgt) (k : key) : M bool :=
  match t with
  | TObj x => let! _ := the_obj x in do_op (Delete x k)
  | TProxy p t' =>
      with_trap p (delete_of t' k) (fun a =>
        match a with
        | Bool false => ret false
        | Bool true =>
            let! c := get_own_of t' k in
            match c with
            | None => ret true
            | Some cd =>
                if negb (flag (d_cf cd)) then throw
                else let! e := truth (is_ext t') in
                     if e : bool then ret true else throw
            end
        | _ => stop
        end)
  end.

(** the keys found so far, in a hash table *)
Definition kmem (k : key) (l : list key) : bool := existsb (key_eqb k) l.
Fixpoint has_dup (l : list key) : bool :=
  match l with [] => false | k :: r => kmem k r || has_dup r end.
Fixpoint take_out (ks : list key) (l : list key) : option (list key) :=
  match ks with
  | [] => Some l
  | k :: r => if kmem k l then take_out r (filter (fun j => negb (key_eqb k j)) l) else None
  end.
(** lines 880-897: the keys of the target, non-configurable ones first *)
Fixpoint classify (t : tgt) (ks : list key) : M (list key * list key) :=
  match ks with
  | [] => ret ([], [])
  | k :: r =>
      let! c := get_own_of t k in
      let! x := classify t r in
      ret (match c with
           | Some cd => if negb (flag (d_cf cd)) then (k :: fst x, snd x) else (fst x, k :: snd x)
           | None => (fst x, k :: snd x)
           end)
  end.
(** pkl_from_object and proxy_object_op_own_property_keys, lines 745-957 *)
Fixpoint keys_of (t : tgt) : M (list key) :=
  match t with
  | TObj x => let! o := the_obj x in from_sres (own_keys o)
  | TProxy p t' =>
      with_trap p (keys_of t') (fun a =>
        match a with
        | Bad => throw
        | KeyList ks =>
            if has_dup ks then throw
            else
              let! e := is_ext t' in
              let! tks := keys_of t' in
              let! x := classify t' tks in
              let '(ncfg, cfg) := x in
              if e && match ncfg with [] => true | _ => false end then ret ks
              else match take_out ncfg ks with
                   | None => throw
                   | Some l =>
                       if e : bool then ret ks
                       else match take_out cfg l with
                            | None => throw
                            | Some l' => match l' with [] => ret ks | _ => throw end
                            end
                   end
        | _ => stop
        end)
  end.

(** ** Programs: calls of the internal methods of one object, what they answered *)
Inductive pop :=
  | PGetProto | PSetProto (q : option nat) | PIsExt | PPrevent
  | PGetOwn (k : key) | PDefine (k : key) (d : desc) (cv : option Z)
  | PHas (k : key) | PGet (k : key) | PSet (k : key) (v : val) (rcv : option tgt) (cv : option Z)
  | PDelete (k : key) | PKeys
  | PScript (ops : list oop).    (* anything else the program does *)
Inductive obs :=
  | OProto (q : option nat) | OSetProto (q : option nat) (b : bool) | OExt (b : bool) | OPrevent (b : bool)
  | OGetOwn (k : key) (c : option desc) | ODefine (k : key) (d : desc) (b : bool)
  | OHas (k : key) (b : bool) | OGet (k : key) (v : val) | OSet (k : key) (v : val) (b : bool)
  | ODelete (k : key) (b : bool) | OKeys (ks : list key)
  | OScript.
Definition map_m {A B} (f : A -> B) (m : M A) : M B := let! a := m in ret (f a).
Definition p_step (t : tgt) (op : pop) : M obs :=
  match op with
  | PGetProto => map_m OProto (get_proto t)
  | PSetProto q => map_m (OSetProto q) (set_proto_of t q)
  | PIsExt => map_m OExt (is_ext t)
  | PPrevent => map_m OPrevent (prevent t)
  | PGetOwn k => map_m (OGetOwn k) (get_own_of t k)
  | PDefine k d cv => map_m (ODefine k d) (define_of t k d cv)
  | PHas k => map_m (OHas k) (has_of t k)
  | PGet k => map_m (OGet k) (get_of t k)
  | PSet k v rcv cv => map_m (OSet k v) (set_of t k v rcv cv)
  | PDelete k => map_m (ODelete k) (delete_of t k)
  | PKeys => map_m OKeys (keys_of t)
  | PScript ops => fun s => match o_run (hp s) ops with
                            | Done h => Ret OScript {| hp := h; revoked := revoked s; evs := evs s; lost := lost s |}
                            | _ => Stop
                            end
  end.
(** a call that throws answers nothing *)
Fixpoint p_run (t : tgt) (s : pst) (ops : list pop) : option (pst * list obs) :=
  match ops with
  | [] => Some (s, [])
  | op :: r =>
      match p_step t op s with
      | Ret o s' => match p_run t s' r with Some (s2, l) => Some (s2, o :: l) | None => None end
      | Thrown s' => p_run t s' r
      | Stop => None
      end
  end.
