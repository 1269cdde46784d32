(** What ECMA-262 says about the operators, stated on the quantities that
    values stand for rather than by the steps of the standard's algorithms. *)
From Coq Require Import ZArith List Bool.
From Verif Require Import NumModel OpModel.
Import ListNotations.
Open Scope Z_scope.

(** ** Quantities: real numbers (in units of 2^-1074) and the two infinities *)
Inductive ext := NegInf | Fin (z : Z) | PosInf.
Definition number_value (bits : Z) : option ext :=
  if is_nan bits then None
  else if is_inf bits then Some (if dsign bits then NegInf else PosInf)
  else Some (Fin (dval bits)).
Definition integer_value (z : Z) : ext := Fin (z * 2 ^ 1074).
Definition ext_lt (a b : ext) : Prop :=
  match a, b with
  | NegInf, NegInf => False
  | NegInf, _ => True
  | Fin x, Fin y => x < y
  | Fin _, PosInf => True
  | _, _ => False
  end.

(** A double is a 64-bit pattern. *)
Definition is_double (b : Z) : Prop := 0 <= b < 2 ^ 64.

(** ** Order of strings: by code units, a proper prefix first (7.2.12 step 3) *)
Definition text_lt (a b : text) : Prop :=
  (exists c t, b = a ++ c :: t) \/
  (exists p x y s t, a = p ++ x :: s /\ b = p ++ y :: t /\ x < y).

Definition rel_holds {A} (lt : A -> A -> Prop) (op : relop) (x y : A) : Prop :=
  match op with
  | RLt => lt x y
  | RLe => lt x y \/ x = y
  | RGt => lt y x
  | RGe => lt y x \/ x = y
  end.

Definition nullish (v : val) : bool := match v with Undef | Null => true | _ => false end.
Definition is_big (v : val) : bool := match v with Big _ => true | _ => false end.
Definition is_sym (v : val) : bool := match v with Sym _ => true | _ => false end.

(** An answer of an operator. *)
Definition answers (P : Prop) (r : res bool) : Prop := exists b, r = Ok b /\ (b = true <-> P).

Section Ops.
Variable W : Type.
Variable get : W -> val -> pname -> W * (exc + val).
Variable call : W -> val -> val -> list val -> W * (exc + val).
Variable callable : val -> bool.
Variable proto_of : W -> nat -> W * (exc + option nat).
Variable bound : nat -> option val.
Variable str_num : text -> Z.
Variable str_big : text -> option Z.
Variable num_str : Z -> text.
Variable big_str : Z -> text.
Variable num_add : Z -> Z -> Z.
Variable num_op : nop -> Z -> Z -> Z.
Variable big_op : nop -> Z -> Z -> res Z.

(** ** ToPrimitive (7.1.1) *)
Definition attempt (w : W) (v : val) (name : pname) (otherwise : W -> W * (exc + val))
  : W * (exc + val) :=
  match get w v name with
  | (w1, inl e) => (w1, inl e)
  | (w1, inr f) =>
    if callable f then
      match call w1 f v [] with
      | (w2, inr (Obj _)) => otherwise w2
      | outcome => outcome
      end
    else otherwise w1
  end.
Definition no_primitive (w : W) : W * (exc + val) := (w, inl EType).
Definition ToPrimitive (w : W) (v : val) (h : hint) : W * (exc + val) :=
  match v with
  | Obj _ =>
    match get w v PToPrimitive with
    | (w1, inl e) => (w1, inl e)
    | (w1, inr Undef) | (w1, inr Null) =>
      match h with
      | HString => attempt w1 v PToString (fun w2 => attempt w2 v PValueOf no_primitive)
      | _ => attempt w1 v PValueOf (fun w2 => attempt w2 v PToString no_primitive)
      end
    | (w1, inr f) =>
      if callable f then
        match call w1 f v [Str (hint_text h)] with
        | (w2, inr (Obj _)) => (w2, inl EType)
        | outcome => outcome
        end
      else (w1, inl EType)
    end
  | _ => (w, inr v)
  end.

(** [v] is not an object with a @@toPrimitive method *)
Definition plain (w : W) (v : val) : Prop :=
  match v with
  | Obj _ => match get w v PToPrimitive with
             | (_, inr f) => nullish f = true
             | (_, inl _) => True
             end
  | _ => True
  end.

(** ** Equality *)
(** the quantity of a primitive value compared with a big integer, or with
    something else *)
Definition quantity (with_big : bool) (v : val) : option ext :=
  match v with
  | Bool b => Some (integer_value (if b then 1 else 0))
  | Num n => number_value n
  | Big z => Some (integer_value z)
  | Str s => if with_big then option_map integer_value (str_big s)
             else number_value (str_num s)
  | _ => None
  end.
(** primitive values which [==] holds equal *)
Definition loose_prim (x y : val) : Prop :=
  match x, y with
  | Str a, Str b => a = b
  | Sym a, Sym b => a = b
  | Undef, Undef | Undef, Null | Null, Undef | Null, Null => True
  | _, _ => exists q, quantity (is_big y) x = Some q /\ quantity (is_big x) y = Some q
  end.
(** the outcome of [v1 == v2] *)
Inductive loose_outcome (w : W) : val -> val -> W -> res bool -> Prop :=
| lo_prims x y r : is_obj x = false -> is_obj y = false ->
    answers (loose_prim x y) r -> loose_outcome w x y w r
| lo_objs a b r : answers (a = b) r -> loose_outcome w (Obj a) (Obj b) w r
| lo_null_l a y : nullish y = true -> loose_outcome w (Obj a) y w (Ok false)
| lo_null_r x b : nullish x = true -> loose_outcome w x (Obj b) w (Ok false)
| lo_obj_l a y w' p r : is_obj y = false -> nullish y = false ->
    ToPrimitive w (Obj a) HDefault = (w', inr p) -> answers (loose_prim p y) r ->
    loose_outcome w (Obj a) y w' r
| lo_obj_l_throw a y w' e : is_obj y = false -> nullish y = false ->
    ToPrimitive w (Obj a) HDefault = (w', inl e) ->
    loose_outcome w (Obj a) y w' (Throw e)
| lo_obj_r x b w' p r : is_obj x = false -> nullish x = false ->
    ToPrimitive w (Obj b) HDefault = (w', inr p) -> answers (loose_prim x p) r ->
    loose_outcome w x (Obj b) w' r
| lo_obj_r_throw x b w' e : is_obj x = false -> nullish x = false ->
    ToPrimitive w (Obj b) HDefault = (w', inl e) ->
    loose_outcome w x (Obj b) w' (Throw e).
(** values which [===] holds equal *)
Definition strict (x y : val) : Prop :=
  match x, y with
  | Undef, Undef | Null, Null => True
  | Bool a, Bool b => a = b
  | Num a, Num b => exists q, number_value a = Some q /\ number_value b = Some q
  | Str a, Str b => a = b
  | Sym a, Sym b => a = b
  | Big a, Big b => a = b
  | Obj a, Obj b => a = b
  | _, _ => False
  end.

(** ** Relational operators *)
Definition rel_quantity (with_big : bool) (v : val) : option ext :=
  match v with Null => Some (integer_value 0) | _ => quantity with_big v end.
Definition rel_prim (op : relop) (x y : val) : Prop :=
  match x, y with
  | Str a, Str b => rel_holds text_lt op a b
  | _, _ => exists p q, rel_quantity (is_big y) x = Some p /\
                        rel_quantity (is_big x) y = Some q /\ rel_holds ext_lt op p q
  end.
(** the outcome of comparing [v1] with [v2] if objects are converted with
    hint [h]; the standard says [HNumber] *)
Inductive rel_outcome (h : hint) (op : relop) (w : W) (v1 v2 : val) : W -> res bool -> Prop :=
| ro_left w1 e : ToPrimitive w v1 h = (w1, inl e) -> rel_outcome h op w v1 v2 w1 (Throw e)
| ro_right w1 p w2 e : ToPrimitive w v1 h = (w1, inr p) -> ToPrimitive w1 v2 h = (w2, inl e) ->
    rel_outcome h op w v1 v2 w2 (Throw e)
| ro_symbol w1 p w2 q : ToPrimitive w v1 h = (w1, inr p) -> ToPrimitive w1 v2 h = (w2, inr q) ->
    is_sym p || is_sym q = true -> rel_outcome h op w v1 v2 w2 (Throw EType)
| ro_answer w1 p w2 q r : ToPrimitive w v1 h = (w1, inr p) -> ToPrimitive w1 v2 h = (w2, inr q) ->
    is_sym p || is_sym q = false -> answers (rel_prim op p q) r ->
    rel_outcome h op w v1 v2 w2 r.

(** ** Arithmetic *)
(** ToNumeric of a primitive value *)
Definition numeric (v : val) : exc + val :=
  match v with
  | Undef => inr (Num nan)
  | Null => inr (Num 0)
  | Bool b => inr (Num (if b then one else 0))
  | Str s => inr (Num (str_num s))
  | Num _ | Big _ => inr v
  | Sym _ | Obj _ => inl EType
  end.
Definition ToNumeric (w : W) (v : val) : W * (exc + val) :=
  match ToPrimitive w v HNumber with
  | (w1, inl e) => (w1, inl e)
  | (w1, inr p) => (w1, numeric p)
  end.
(** ToString of a primitive value *)
Definition display (v : val) : exc + text :=
  match v with
  | Undef => inr [117; 110; 100; 101; 102; 105; 110; 101; 100]
  | Null => inr [110; 117; 108; 108]
  | Bool b => inr (if b then [116; 114; 117; 101] else [102; 97; 108; 115; 101])
  | Str s => inr s
  | Num n => inr (num_str n)
  | Big z => inr (big_str z)
  | Sym _ | Obj _ => inl EType
  end.
(** two numeric operands: both must be big integers or both numbers *)
Definition arith (f : Z -> Z -> res Z) (g : Z -> Z -> Z) (x y : val) : res val :=
  match x, y with
  | Big a, Big b =>
    match f a b with
    | Ok z => Ok (Big z)
    | Throw e => Throw e
    | Crash => Crash
    | Fuel => Fuel
    end
  | Num a, Num b => Ok (Num (g a b))
  | _, _ => Throw EType
  end.
(** 13.15.3 for [+] *)
Definition Add (w : W) (v1 v2 : val) : W * res val :=
  match ToPrimitive w v1 HDefault with
  | (w1, inl e) => (w1, Throw e)
  | (w1, inr p) =>
    match ToPrimitive w1 v2 HDefault with
    | (w2, inl e) => (w2, Throw e)
    | (w2, inr q) =>
      (w2,
       match p, q with
       | Str _, _ | _, Str _ =>
         match display p, display q with
         | inr s, inr t => Ok (Str (s ++ t))
         | _, _ => Throw EType
         end
       | _, _ =>
         match numeric p, numeric q with
         | inr x, inr y => arith (fun a b => Ok (a + b)) num_add x y
         | _, _ => Throw EType
         end
       end)
    end
  end.
(** 13.15.3 for the other operators: the left operand is converted completely
    before the right one *)
Definition Arithmetic (o : nop) (w : W) (v1 v2 : val) : W * res val :=
  match ToNumeric w v1 with
  | (w1, inl e) => (w1, Throw e)
  | (w1, inr x) =>
    match ToNumeric w1 v2 with
    | (w2, inl e) => (w2, Throw e)
    | (w2, inr y) => (w2, arith (big_op o) (num_op o) x y)
    end
  end.

(** ** [instanceof] (13.10.2, 7.3.22), with ToBoolean (7.1.2) *)
Definition truthy (v : val) : Prop :=
  match v with
  | Undef | Null => False
  | Bool b => b = true
  | Num n => exists q, number_value n = Some q /\ q <> Fin 0
  | Str s => s <> []
  | Big z => z <> 0
  | Sym _ | Obj _ => True
  end.
(** [P] is on the prototype chain of [o] *)
Inductive chain (P : nat) : W -> nat -> W -> res bool -> Prop :=
| ch_throw w o w' e : proto_of w o = (w', inl e) -> chain P w o w' (Throw e)
| ch_end w o w' : proto_of w o = (w', inr None) -> chain P w o w' (Ok false)
| ch_found w o w' : proto_of w o = (w', inr (Some P)) -> chain P w o w' (Ok true)
| ch_next w o w1 q w' r : proto_of w o = (w1, inr (Some q)) -> q <> P ->
    chain P w1 q w' r -> chain P w o w' r.
(** OrdinaryHasInstance(C, O) and InstanceofOperator(V, target) *)
Inductive has_instance : W -> val -> val -> W -> res bool -> Prop :=
| hi_not_callable w c o : callable c = false -> has_instance w c o w (Ok false)
| hi_bound w n o t w' r : callable (Obj n) = true -> bound n = Some t ->
    instanceof w o t w' r -> has_instance w (Obj n) o w' r
| hi_prim w n o : callable (Obj n) = true -> bound n = None -> is_obj o = false ->
    has_instance w (Obj n) o w (Ok false)
| hi_get_throw w n o w' e : callable (Obj n) = true -> bound n = None -> is_obj o = true ->
    get w (Obj n) PPrototype = (w', inl e) -> has_instance w (Obj n) o w' (Throw e)
| hi_proto w n o w' p : callable (Obj n) = true -> bound n = None -> is_obj o = true ->
    get w (Obj n) PPrototype = (w', inr p) -> is_obj p = false ->
    has_instance w (Obj n) o w' (Throw EType)
| hi_chain w n o w1 p w' r : callable (Obj n) = true -> bound n = None ->
    get w (Obj n) PPrototype = (w1, inr (Obj p)) -> chain p w1 o w' r ->
    has_instance w (Obj n) (Obj o) w' r
with instanceof : W -> val -> val -> W -> res bool -> Prop :=
| io_not_object w v t : is_obj t = false -> instanceof w v t w (Throw EType)
| io_get_throw w v t w' e : is_obj t = true -> get w t PHasInstance = (w', inl e) ->
    instanceof w v t w' (Throw e)
| io_bad_method w v t w' f : is_obj t = true -> get w t PHasInstance = (w', inr f) ->
    nullish f = false -> callable f = false -> instanceof w v t w' (Throw EType)
| io_method w v t w1 f w' r : is_obj t = true -> get w t PHasInstance = (w1, inr f) ->
    nullish f = false -> callable f = true -> call w1 f t [v] = (w', inr r) ->
    forall b, answers (truthy r) b -> instanceof w v t w' b
| io_method_throw w v t w1 f w' e : is_obj t = true -> get w t PHasInstance = (w1, inr f) ->
    nullish f = false -> callable f = true -> call w1 f t [v] = (w', inl e) ->
    instanceof w v t w' (Throw e)
| io_not_callable w v t w1 f : is_obj t = true -> get w t PHasInstance = (w1, inr f) ->
    nullish f = true -> callable t = false -> instanceof w v t w1 (Throw EType)
| io_ordinary w v t w1 f w' r : is_obj t = true -> get w t PHasInstance = (w1, inr f) ->
    nullish f = true -> callable t = true -> has_instance w1 t v w' r ->
    instanceof w v t w' r.
End Ops.

(** ** [typeof] (13.5.3, table 41) *)
Inductive typeof_name (callable : val -> bool) : val -> tname -> Prop :=
| tn_undefined : typeof_name callable Undef NUndefined
| tn_null : typeof_name callable Null NObject
| tn_boolean b : typeof_name callable (Bool b) NBoolean
| tn_number n : typeof_name callable (Num n) NNumber
| tn_string s : typeof_name callable (Str s) NString
| tn_symbol n : typeof_name callable (Sym n) NSymbol
| tn_bigint z : typeof_name callable (Big z) NBigint
| tn_function n : callable (Obj n) = true -> typeof_name callable (Obj n) NFunction
| tn_object n : callable (Obj n) = false -> typeof_name callable (Obj n) NObject.
