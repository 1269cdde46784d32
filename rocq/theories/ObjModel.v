(** Model of ordinary objects and arrays: src/lib/rjs_object.c:193-1262,
    src/lib/rjs_array.c:28-253 and the integrity levels of src/lib/rjs_operation.c:936-1058.
    Simplifications: property names are already resolved (prop_resolve, lines 193-217, is
    modelled in the Key files); interned strings and symbols are numbers; the property hash
    and the property list of one object are the list of its named properties in list order
    (the hash table is modelled in the Hash files); a descriptor flag is [option bool]
    (HAS_X bit, X bit), so an X bit without its HAS_X bit cannot be written; the conversion
    of a new array length to a number, which may run user code, happens before the
    operation and its result is carried by the operation; a setter or a proxy in the way is
    reported as a result and what it does is further operations. *)
From Coq Require Import ZArith List Bool.
Import ListNotations.
From Verif Require Import StrModel StoreModel.
Local Open Scope Z_scope.

Inductive nkey := NStr (s : Z) | NSym (s : Z).
Inductive key := KIdx (i : Z) | KName (n : nkey).
Definition nkey_eqb (a b : nkey) : bool :=
  match a, b with NStr x, NStr y => x =? y | NSym x, NSym y => x =? y | _, _ => false end.
Definition key_eqb (a b : key) : bool :=
  match a, b with KIdx x, KIdx y => x =? y | KName x, KName y => nkey_eqb x y | _, _ => false end.
(** rjs_pn_length *)
Definition length_key : nkey := NStr 0.

Definition names := list (nkey * prop).
Fixpoint n_find (l : names) (k : nkey) : option prop :=
  match l with [] => None | (j, p) :: r => if nkey_eqb j k then Some p else n_find r k end.
Fixpoint n_update (l : names) (k : nkey) (p : prop) : names :=
  match l with [] => [] | (j, q) :: r => if nkey_eqb j k then (j, p) :: r else (j, q) :: n_update r k p end.
Fixpoint n_remove (l : names) (k : nkey) : names :=
  match l with [] => [] | (j, q) :: r => if nkey_eqb j k then r else (j, q) :: n_remove r k end.

(** proxies and module namespaces have their own operations: [Exotic] *)
Inductive okind := Ordinary | Array | Exotic.
(** RJS_Object, include/ratjs/rjs_object.h *)
Record obj := { kind : okind; proto : option nat; ext : bool; arr : store; named : names }.
Definition with_arr (o : obj) (s : store) : obj := {| kind := kind o; proto := proto o; ext := ext o; arr := s; named := named o |}.
Definition with_named (o : obj) (l : names) : obj := {| kind := kind o; proto := proto o; ext := ext o; arr := arr o; named := l |}.
Definition with_ext (o : obj) (b : bool) : obj := {| kind := kind o; proto := proto o; ext := b; arr := arr o; named := named o |}.
Definition with_proto (o : obj) (p : option nat) : obj := {| kind := kind o; proto := p; ext := ext o; arr := arr o; named := named o |}.

(** prop_lookup, lines 229-276 *)
Definition o_lookup (o : obj) (k : key) : sres (option prop) :=
  match k with KIdx i => s_lookup (arr o) i | KName n => SOk (n_find (named o) n) end.
(** prop_add, lines 359-413, followed by the assignment of the property *)
Definition o_add (o : obj) (k : key) (p : prop) : sres obj :=
  match k with
  | KIdx i => do s <- s_add (arr o) i p; SOk (with_arr o s)
  | KName n => SOk (with_named o (named o ++ [(n, p)]))
  end.
(** assignment to the property found by prop_lookup *)
Definition o_update (o : obj) (k : key) (p : prop) : sres obj :=
  match k with
  | KIdx i => do s <- s_update (arr o) i p; SOk (with_arr o s)
  | KName n => SOk (with_named o (n_update (named o) n p))
  end.
(** prop_delete, lines 415-471 *)
Definition o_remove (o : obj) (k : key) : sres obj :=
  match k with
  | KIdx i => do s <- s_delete (arr o) i; SOk (with_arr o s)
  | KName n => SOk (with_named o (n_remove (named o) n))
  end.

(** RJS_PropertyDesc *)
Record desc := { d_val : option val; d_wr : option bool; d_get : option val; d_set : option val; d_en : option bool; d_cf : option bool }.
Definition is_some {A} (x : option A) : bool := match x with Some _ => true | None => false end.
(** include/ratjs/rjs_operation.h:179-228 *)
Definition is_acc (d : desc) : bool := is_some (d_get d) || is_some (d_set d).
Definition is_data (d : desc) : bool := is_some (d_wr d) || is_some (d_val d).
Definition is_generic (d : desc) : bool := negb (is_acc d) && negb (is_data d).
Definition no_flags (d : desc) : bool := negb (is_acc d) && negb (is_data d) && negb (is_some (d_en d)) && negb (is_some (d_cf d)).

(** rjs_ordinary_object_op_get_own_property, lines 671-702 *)
Definition desc_of (p : prop) : desc :=
  if acc p then {| d_val := None; d_wr := None; d_get := Some (pget p); d_set := Some (pset p); d_en := Some (en p); d_cf := Some (cf p) |}
  else {| d_val := Some (pval p); d_wr := Some (wr p); d_get := None; d_set := None; d_en := Some (en p); d_cf := Some (cf p) |}.
Definition get_own (o : obj) (k : key) : sres (option desc) :=
  do x <- o_lookup o k; SOk (option_map desc_of x).

Definition flag (x : option bool) : bool := match x with Some b => b | None => false end.
Definition or_undef (x : option val) : val := match x with Some v => v | None => Undef end.
Definition keep {A} (x : option A) (old : A) : A := match x with Some v => v | None => old end.
Definition differs (x y : option val) : bool :=
  match x with None => false | Some a => match y with Some b => negb (val_eqb a b) | None => true end end.

(** validate_and_apply_property, lines 707-863: the new property, lines 722-753 *)
Definition new_prop (d : desc) : prop :=
  if is_acc d then
    {| acc := true; wr := false; en := flag (d_en d); cf := flag (d_cf d); pval := Undef; pget := or_undef (d_get d); pset := or_undef (d_set d) |}
  else
    {| acc := false; wr := flag (d_wr d); en := flag (d_en d); cf := flag (d_cf d); pval := or_undef (d_val d); pget := Undef; pset := Undef |}.
(** lines 758-781: the changes refused to a non-configurable property *)
Definition refused (d c : desc) : bool :=
  negb (flag (d_cf c)) &&
  (   (is_some (d_cf d) && flag (d_cf d))
   || (is_some (d_en d) && negb (Bool.eqb (flag (d_en d)) (flag (d_en c))))
   || (negb (is_generic d) && negb (Bool.eqb (is_acc d) (is_acc c)))
   || (if is_acc d then differs (d_get d) (d_get c) || differs (d_set d) (d_set c)
       else negb (flag (d_wr c)) &&
            ((is_some (d_wr d) && flag (d_wr d)) || differs (d_val d) (d_val c)))).
(** lines 789-859: the assignment *)
Definition apply_desc (p : prop) (d c : desc) : prop :=
  let cf' := keep (d_cf d) (cf p) in
  let en' := keep (d_en d) (en p) in
  if is_data d && is_acc c then
    {| acc := false; wr := (if flag (d_wr d) then true else wr p); en := en'; cf := cf'; pval := or_undef (d_val d); pget := pget p; pset := pset p |}
  else if is_acc d && is_data c then
    {| acc := true; wr := false; en := en'; cf := cf'; pval := pval p; pget := or_undef (d_get d); pset := or_undef (d_set d) |}
  else if acc p then
    {| acc := true; wr := wr p; en := en'; cf := cf'; pval := pval p; pget := keep (d_get d) (pget p); pset := keep (d_set d) (pset p) |}
  else
    {| acc := false; wr := keep (d_wr d) (wr p); en := en'; cf := cf'; pval := keep (d_val d) (pval p); pget := pget p; pset := pset p |}.
Definition validate_and_apply (o : obj) (k : key) (d : desc) (curr : option desc) : sres (obj * bool) :=
  match curr with
  | None => if ext o then do o' <- o_add o k (new_prop d); SOk (o', true) else SOk (o, false)
  | Some c =>
      if no_flags d then SOk (o, true)
      else if refused d c then SOk (o, false)
      else do x <- o_lookup o k;
           match x with
           | None => SUB (* assert *)
           | Some p => do o' <- o_update o k (apply_desc p d c); SOk (o', true)
           end
  end.

(** rjs_ordinary_object_op_define_own_property, lines 907-933 *)
Definition ord_define (o : obj) (k : key) (d : desc) : sres (obj * bool) :=
  do curr <- get_own o k;
  validate_and_apply o k d curr.

(** results of the operations *)
Inductive res := RTrue | RFalse | RThrow | RCall (f : val) | RExt.
Definition res_of (b : bool) : res := if b then RTrue else RFalse.

(** rjs_to_uint32 on an integral number; a double outside int64_t cannot be cast (C35) *)
Definition to_u32 (n : Z) : sres Z := if (- 2 ^ 63 <=? n) && (n <? 2 ^ 63) then SOk (u32 n) else SUB.
(** the length property as (number, writable) *)
Definition array_len (o : obj) : sres (Z * desc) :=
  do c <- get_own o (KName length_key);
  match c with
  | Some d => match d_val d with Some (Num n) => SOk (n, d) | _ => SUB end
  | None => SUB
  end.
Definition val_desc (n : Z) (w : option bool) : desc :=
  {| d_val := Some (Num n); d_wr := w; d_get := None; d_set := None; d_en := None; d_cf := None |}.

(** array_set_length, lines 28-132; [cv]: the number an [Other] value converts to, [None]
    if the conversion throws or the number is not integral *)
Definition array_set_length (o : obj) (d : desc) (cv : option Z) : sres (obj * res) :=
  match d_val d with
  | None => do x <- ord_define o (KName length_key) d; SOk (fst x, res_of (snd x))
  | Some v =>
      match (match v with Num n => Some n | Undef => None | Other _ => cv end) with
      | None => SOk (o, RThrow)
      | Some n =>
          do new_len <- to_u32 n;
          if negb (new_len =? n) then SOk (o, RThrow)
          else
            let nd := {| d_val := Some (Num new_len); d_wr := d_wr d; d_get := d_get d; d_set := d_set d; d_en := d_en d; d_cf := d_cf d |} in
            do ol <- array_len o;
            let '(old_len, old) := ol in
            if old_len <=? new_len then do x <- ord_define o (KName length_key) nd; SOk (fst x, res_of (snd x))
            else if negb (flag (d_wr old)) then SOk (o, RFalse)
            else
              let new_wr := negb (is_some (d_wr nd)) || flag (d_wr nd) in
              let nd' := if new_wr then nd
                         else {| d_val := d_val nd; d_wr := Some true; d_get := d_get nd; d_set := d_set nd; d_en := d_en nd; d_cf := d_cf nd |} in
              do x <- ord_define o (KName length_key) nd';
              if negb (snd x) then SOk (fst x, RFalse)
              else
                do y <- s_cut (arr (fst x)) new_len;
                let o2 := with_arr (fst x) (fst y) in
                match snd y with
                | Some i => (* lines 107-114 *)
                    do z <- ord_define o2 (KName length_key) (val_desc (u32 (i + 1)) (if new_wr then None else Some false));
                    SOk (fst z, RFalse)
                | None =>
                    if new_wr then SOk (o2, RTrue)
                    else
                      do z <- ord_define o2 (KName length_key) {| d_val := None; d_wr := Some false; d_get := None; d_set := None; d_en := None; d_cf := None |};
                      SOk (fst z, RTrue)
                end
      end
  end.

(** array_set_item, lines 135-170 *)
Definition array_set_item (o : obj) (i : Z) (d : desc) : sres (obj * res) :=
  do ol <- array_len o;
  let '(olen, old) := ol in
  if (olen <=? i) && negb (flag (d_wr old)) then SOk (o, RFalse)
  else
    do x <- ord_define o (KIdx i) d;
    if negb (snd x) then SOk (fst x, RFalse)
    else if olen <=? i then
      do y <- ord_define (fst x) (KName length_key)
                {| d_val := Some (Num (i + 1)); d_wr := d_wr old; d_get := d_get old; d_set := d_set old; d_en := d_en old; d_cf := d_cf old |};
      SOk (fst y, RTrue)
    else SOk (fst x, RTrue).

(** rjs_object_define_own_property: array_op_define_own_property, lines 172-193, or the
    ordinary one *)
Definition o_define (o : obj) (k : key) (d : desc) (cv : option Z) : sres (obj * res) :=
  match kind o with
  | Exotic => SOk (o, RExt)
  | Array =>
      match k with
      | KIdx i => array_set_item o i d
      | KName n => if nkey_eqb n length_key then array_set_length o d cv
                   else do x <- ord_define o k d; SOk (fst x, res_of (snd x))
      end
  | Ordinary => do x <- ord_define o k d; SOk (fst x, res_of (snd x))
  end.

(** rjs_ordinary_object_op_delete, lines 1134-1163 *)
Definition o_delete (o : obj) (k : key) : sres (obj * res) :=
  match kind o with
  | Exotic => SOk (o, RExt)
  | _ =>
      do c <- get_own o k;
      match c with
      | None => SOk (o, RTrue)
      | Some d => if flag (d_cf d) then do o' <- o_remove o k; SOk (o', RTrue) else SOk (o, RFalse)
      end
  end.

(** rjs_ordinary_object_op_own_property_keys and rjs_property_key_list_add_own_keys, lines
    1165-1251: writing more keys than allocated is undefined *)
Definition index_keys (s : store) : sres (list Z) :=
  match its s with
  | Tree t => SOk (map fst t)
  | Vec v =>
      if cap s =? 0 then SOk []
      else match v with
           | None => SUB
           | Some l => if maxi s <? Z.of_nat (length l)
                       then SOk (map fst (entries 0 (firstn (Z.to_nat (maxi s + 1)) l))) else SUB
           end
  end.
Definition is_str (n : nkey) : bool := match n with NStr _ => true | NSym _ => false end.
Definition own_keys (o : obj) : sres (list key) :=
  do ix <- index_keys (arr o);
  let ks := map KIdx ix ++ map KName (filter is_str (map fst (named o)))
            ++ map KName (filter (fun n => negb (is_str n)) (map fst (named o))) in
  if Z.of_nat (length ks) <=? Z.of_nat (length (named o)) + num (arr o) then SOk ks else SUB.

(** rjs_object_init and rjs_array_new, lines 211-253 *)
Definition new_object (p : option nat) : obj := {| kind := Ordinary; proto := p; ext := true; arr := empty_store; named := [] |}.
Definition new_exotic : obj := {| kind := Exotic; proto := None; ext := true; arr := empty_store; named := [] |}.
Definition new_array (p : option nat) (len : Z) : sres (option obj) :=
  if 0xffffffff <? len then SOk None
  else do x <- ord_define {| kind := Array; proto := p; ext := true; arr := empty_store; named := [] |} (KName length_key)
                 {| d_val := Some (Num len); d_wr := Some true; d_get := None; d_set := None; d_en := Some false; d_cf := Some false |};
       SOk (Some (fst x)).

(** ** The heap *)
Definition heap := list obj.
Fixpoint put (h : heap) (x : nat) (o : obj) : heap :=
  match h, x with [], _ => [] | _ :: r, O => o :: r | a :: r, S x' => a :: put r x' o end.

(** rjs_ordinary_object_op_set_prototype_of, lines 578-628.  [walk]: is [x] reached from
    [p]?  [None] if the loop does not end within [fuel] steps. *)
Fixpoint walk (fuel : nat) (h : heap) (x : nat) (p : option nat) : option (sres bool) :=
  match fuel with
  | O => None
  | S f =>
      match p with
      | None => Some (SOk false)
      | Some y =>
          if Nat.eqb y x then Some (SOk true)
          else match nth_error h y with
               | None => Some SUB
               | Some oy => match kind oy with Exotic => Some (SOk false) | _ => walk f h x (proto oy) end
               end
      end
  end.
Definition proto_eqb (a b : option nat) : bool :=
  match a, b with None, None => true | Some x, Some y => Nat.eqb x y | _, _ => false end.
Inductive outcome {A : Type} := Done (a : A) | Undefined | Loops.
Arguments outcome : clear implicits.
Definition lift {A} (x : sres A) : outcome A := match x with SOk a => Done a | _ => Undefined end.
Definition bind {A B} (x : outcome A) (f : A -> outcome B) : outcome B :=
  match x with Done a => f a | Undefined => Undefined | Loops => Loops end.

Definition set_proto (h : heap) (x : nat) (p : option nat) : outcome (heap * res) :=
  match nth_error h x with
  | None => Undefined
  | Some o =>
      match kind o with
      | Exotic => Done (h, RExt)
      | _ =>
          if proto_eqb (proto o) p then Done (h, RTrue)
          else if negb (ext o) then Done (h, RFalse)
          else match walk (S (S (length h))) h x p with
               | None => Loops
               | Some r => bind (lift r) (fun cyc => if cyc : bool then Done (h, RFalse) else Done (put h x (with_proto o p), RTrue))
               end
      end
  end.

Definition all_true (v : val) : desc :=
  {| d_val := Some v; d_wr := Some true; d_get := None; d_set := None; d_en := Some true; d_cf := Some true |}.
Definition upd_obj (h : heap) (x : nat) (r : sres (obj * res)) : outcome (heap * res) :=
  bind (lift r) (fun y => Done (put h x (fst y), snd y)).

(** rjs_ordinary_object_op_set, lines 1041-1121; [rcv] is the receiver, [None] if it is
    not an object *)
Definition set_receiver (h : heap) (rcv : option nat) (k : key) (v : val) (cv : option Z) (writable : bool) : outcome (heap * res) :=
  if negb writable then Done (h, RFalse)
  else match rcv with
       | None => Done (h, RFalse)
       | Some y =>
           match nth_error h y with
           | None => Undefined
           | Some oy =>
               match kind oy with
               | Exotic => Done (h, RExt)
               | _ =>
                   bind (lift (get_own oy k)) (fun c =>
                   match c with
                   | Some ed =>
                       if is_acc ed then Done (h, RFalse)
                       else if negb (flag (d_wr ed)) then Done (h, RFalse)
                       else upd_obj h y (o_define oy k {| d_val := Some v; d_wr := None; d_get := None; d_set := None; d_en := None; d_cf := None |} cv)
                   | None => upd_obj h y (o_define oy k (all_true v) cv)
                   end)
               end
           end
       end.
Fixpoint set_prop (fuel : nat) (h : heap) (x : nat) (k : key) (v : val) (rcv : option nat) (cv : option Z) : outcome (heap * res) :=
  match fuel with
  | O => Loops
  | S f =>
      match nth_error h x with
      | None => Undefined
      | Some o =>
          match kind o with
          | Exotic => Done (h, RExt)
          | _ =>
              bind (lift (get_own o k)) (fun c =>
              match c with
              | None => match proto o with
                        | Some y => set_prop f h y k v rcv cv
                        | None => set_receiver h rcv k v cv true
                        end
              | Some d =>
                  if is_data d then set_receiver h rcv k v cv (flag (d_wr d))
                  else match d_set d with
                       | Some f => match f with Undef => Done (h, RFalse) | _ => Done (h, RCall f) end
                       | None => Undefined
                       end
              end)
          end
      end
  end.

(** Operations *)
Inductive oop :=
  | NewObject (p : option nat)
  | NewExotic
  | NewArray (p : option nat) (len : Z)
  | Define (x : nat) (k : key) (d : desc) (cv : option Z)
  | Delete (x : nat) (k : key)
  | SetProp (x : nat) (k : key) (v : val) (rcv : option nat) (cv : option Z)
  | Prevent (x : nat)
  | SetProto (x : nat) (p : option nat).

(** a prototype is null or an existing object *)
Definition ref_ok (h : heap) (p : option nat) : bool := match p with None => true | Some y => Nat.ltb y (length h) end.
Definition o_step (h : heap) (op : oop) : outcome (heap * res) :=
  match op with
  | NewObject p => if ref_ok h p then Done (h ++ [new_object p], RTrue) else Undefined
  | NewExotic => Done (h ++ [new_exotic], RTrue)
  | NewArray p len =>
      if ref_ok h p
      then bind (lift (new_array p len)) (fun r => match r with Some o => Done (h ++ [o], RTrue) | None => Done (h, RThrow) end)
      else Undefined
  | Define x k d cv => match nth_error h x with None => Undefined | Some o => upd_obj h x (o_define o k d cv) end
  | Delete x k => match nth_error h x with None => Undefined | Some o => upd_obj h x (o_delete o k) end
  | SetProp x k v rcv cv => set_prop (S (length h)) h x k v rcv cv
  | Prevent x =>
      match nth_error h x with
      | None => Undefined
      | Some o => match kind o with Exotic => Done (h, RExt) | _ => Done (put h x (with_ext o false), RTrue) end
      end
  | SetProto x p => set_proto h x p
  end.
Fixpoint o_run (h : heap) (ops : list oop) : outcome heap :=
  match ops with [] => Done h | op :: r => bind (o_step h op) (fun y => o_run (fst y) r) end.

(** ** Integrity levels, src/lib/rjs_operation.c:936-1058 (ordinary objects and arrays) *)
Definition conf_false (w : option bool) : desc :=
  {| d_val := None; d_wr := w; d_get := None; d_set := None; d_en := None; d_cf := Some false |}.
(** one key: rjs_define_property_or_throw; [false] = a TypeError was thrown *)
Definition level_key (frozen : bool) (o : obj) (k : key) : sres (obj * bool) :=
  if frozen then
    do c <- get_own o k;
    match c with
    | None => SOk (o, true)
    | Some d => do x <- o_define o k (conf_false (if is_acc d then None else Some false)) None;
                SOk (fst x, match snd x with RTrue => true | _ => false end)
    end
  else do x <- o_define o k (conf_false None) None;
       SOk (fst x, match snd x with RTrue => true | _ => false end).
Fixpoint level_keys (frozen : bool) (o : obj) (ks : list key) : sres (obj * bool) :=
  match ks with
  | [] => SOk (o, true)
  | k :: r => do x <- level_key frozen o k; if snd x then level_keys frozen (fst x) r else SOk x
  end.
Definition set_level (frozen : bool) (o : obj) : sres (obj * bool) :=
  let o1 := with_ext o false in
  do ks <- own_keys o1;
  level_keys frozen o1 ks.
Fixpoint test_keys (frozen : bool) (o : obj) (ks : list key) : sres bool :=
  match ks with
  | [] => SOk true
  | k :: r =>
      do c <- get_own o k;
      match c with
      | None => test_keys frozen o r
      | Some d => if flag (d_cf d) then SOk false
                  else if frozen && is_data d && flag (d_wr d) then SOk false
                  else test_keys frozen o r
      end
  end.
Definition test_level (frozen : bool) (o : obj) : sres bool :=
  if ext o then SOk false else do ks <- own_keys o; test_keys frozen o ks.
