(** Operators on values: equality, relational comparison, [+] and the other
    binary arithmetic operators, [typeof], [instanceof], and the conversions to
    primitive and numeric values behind them.

    Source: src/lib/rjs_bc_call.c:447-735, src/lib/rjs_operation.c:1177-1496,
    src/lib/rjs_object.c:1405-1523, include/ratjs/rjs_operation.h:257-293,
    470-492, 620-690, 1249-1269, src/lib/include/rjs_number.h:253-279,
    src/lib/rjs_function_object_inc.c:268-279.

    Script code is not modelled: reading a property, calling a function and
    reading a prototype are parameters acting on an arbitrary state [W], so
    each theorem holds whatever scripts do.  Also parameters: the text
    conversions of numbers and big integers and the arithmetic on doubles.
    Big integers are integers here (C20-C26 relate the limbs to the integer);
    numbers are 64-bit patterns.  Left out: running out of memory. *)
From Coq Require Import ZArith List Bool.
From Verif Require Import NumModel.
Import ListNotations.
Open Scope Z_scope.

Definition text := list Z.
(** include/ratjs/rjs_value.h — language values; objects and symbols are named
    by number *)
Inductive val :=
| Undef | Null | Bool (b : bool) | Num (bits : Z) | Str (s : text)
| Sym (n : nat) | Big (z : Z) | Obj (n : nat).
Inductive vty := TUndef | TNull | TBool | TNum | TStr | TSym | TBig | TObj.
(** include/ratjs/rjs_value.h:164-205 — [rjs_value_get_type] *)
Definition ty (v : val) : vty :=
  match v with
  | Undef => TUndef | Null => TNull | Bool _ => TBool | Num _ => TNum
  | Str _ => TStr | Sym _ => TSym | Big _ => TBig | Obj _ => TObj
  end.
Definition vty_eqb (a b : vty) : bool :=
  match a, b with
  | TUndef, TUndef | TNull, TNull | TBool, TBool | TNum, TNum
  | TStr, TStr | TSym, TSym | TBig, TBig | TObj, TObj => true
  | _, _ => false
  end.
Definition is_obj (v : val) : bool := match v with Obj _ => true | _ => false end.

(** What is thrown: an error made by the engine, or a value of the script. *)
Inductive exc := EType | ERange | EVal (v : val).
(** [Crash] is a failed assertion or undefined behaviour; [Fuel] says that the
    step bound of a model function was too small. *)
Inductive res (A : Type) := Ok (a : A) | Throw (e : exc) | Crash | Fuel.
Arguments Ok {A} a. Arguments Throw {A} e. Arguments Crash {A}. Arguments Fuel {A}.

Inductive pname := PToPrimitive | PToString | PValueOf | PHasInstance | PPrototype.
Inductive hint := HString | HNumber | HDefault.
(** src/lib/rjs_object.c:1478-1488 — the strings passed to @@toPrimitive *)
Definition hint_text (h : hint) : text :=
  match h with
  | HString => [115; 116; 114; 105; 110; 103]
  | HNumber => [110; 117; 109; 98; 101; 114]
  | HDefault => [100; 101; 102; 97; 117; 108; 116]
  end.

(** include/ratjs/rjs_types.h:71-76 — [RJS_CompareResult] *)
Inductive cmp := EQUAL | LESS | GREATER | UNDEFINED.
Definition swap (c : cmp) : cmp :=
  match c with GREATER => LESS | LESS => GREATER | c => c end.
Definition is_equal (c : cmp) : bool := match c with EQUAL => true | _ => false end.

(** [==] and [<] of C on doubles which are not NaN: the order of the patterns
    read as sign and magnitude ([dval] of an infinity is beyond every finite
    one). *)
Definition c_eq (a b : Z) : bool := dval a =? dval b.
Definition c_lt (a b : Z) : bool := dval a <? dval b.
(** src/lib/include/rjs_number.h:262-279 *)
Definition number_compare (n1 n2 : Z) : cmp :=
  if is_nan n1 || is_nan n2 then UNDEFINED
  else if c_eq n1 n2 then EQUAL
  else if c_lt n1 n2 then LESS
  else GREATER.
Definition of_comparison (c : comparison) : cmp :=
  match c with Eq => EQUAL | Lt => LESS | Gt => GREATER end.
(** src/lib/rjs_big_int_internal_opt.c — [rjs_big_int_compare], on the integers *)
Definition big_compare (a b : Z) : cmp := of_comparison (a ?= b).
(** src/lib/rjs_big_int_internal_opt.c:2189-2226 *)
Definition big_compare_number (b : Z) (n : Z) : cmp :=
  if is_nan n then UNDEFINED
  else if is_inf n then (if dsign n then GREATER else LESS)
  else
    match big_compare b (dtrunc n) with
    | EQUAL => if dtrunc n * unit <? dval n then LESS
               else if dval n <? dtrunc n * unit then GREATER
               else EQUAL
    | c => c
    end.
(** src/lib/rjs_string.c:1054-1095 *)
Fixpoint string_compare (a b : text) : cmp :=
  match a, b with
  | [], [] => EQUAL
  | [], _ :: _ => LESS
  | _ :: _, [] => GREATER
  | x :: a', y :: b' =>
    if x =? y then string_compare a' b'
    else if x <? y then LESS else GREATER
  end.
Fixpoint string_equal (a b : text) : bool :=
  match a, b with
  | [], [] => true
  | x :: a', y :: b' => (x =? y) && string_equal a' b'
  | _, _ => false
  end.

(** include/ratjs/rjs_operation.h:265-293 *)
Definition same_value_non_numeric (v1 v2 : val) : res bool :=
  match v1, v2 with
  | Undef, _ | Null, _ => Ok true
  | Str a, Str b => Ok (string_equal a b)
  | Bool a, Bool b => Ok (Bool.eqb a b)
  | Sym a, Sym b | Obj a, Obj b => Ok (Nat.eqb a b)
  | _, _ => Crash
  end.
(** src/lib/rjs_operation.c:1481-1496 *)
Definition strictly_equal (v1 v2 : val) : res bool :=
  if negb (vty_eqb (ty v1) (ty v2)) then Ok false else
  match v1, v2 with
  | Num a, Num b => Ok (is_equal (number_compare a b))
  | Big a, Big b => Ok (is_equal (big_compare a b))
  | _, _ => same_value_non_numeric v1 v2
  end.

(** the arithmetic operators of NUMERIC_BINARY_OP *)
Inductive nop :=
  OpSub | OpMul | OpDiv | OpMod | OpExp | OpShl | OpShr | OpUshr | OpAnd | OpXor | OpOr.

Inductive relop := RLt | RLe | RGt | RGe.

Section Ops.
Variable W : Type.
(** [rjs_get], [rjs_get_v] *)
Variable get : W -> val -> pname -> W * (exc + val).
(** [rjs_call]: function, this, arguments *)
Variable call : W -> val -> val -> list val -> W * (exc + val).
(** [rjs_is_callable] *)
Variable callable : val -> bool.
(** [rjs_object_get_prototype_of]: an object or null *)
Variable proto_of : W -> nat -> W * (exc + option nat).
(** the target of a bound function *)
Variable bound : nat -> option val.
(** [rjs_string_to_number], [rjs_string_to_big_int], [rjs_number_to_string],
    [rjs_big_int_to_string] *)
Variable str_num : text -> Z.
Variable str_big : text -> option Z.
Variable num_str : Z -> text.
Variable big_str : Z -> text.
(** the arithmetic on numbers and on big integers *)
Variable num_add : Z -> Z -> Z.
Variable num_op : nop -> Z -> Z -> Z.
Variable big_op : nop -> Z -> Z -> res Z.

Definition M (A : Type) := W -> W * res A.
Definition ret {A} (a : A) : M A := fun w => (w, Ok a).
Definition throw {A} (e : exc) : M A := fun w => (w, Throw e).
Definition crash {A} : M A := fun w => (w, Crash).
Definition lift {A} (r : res A) : M A := fun w => (w, r).
Definition bind {A B} (m : M A) (f : A -> M B) : M B := fun w =>
  match m w with
  | (w', Ok a) => f a w'
  | (w', Throw e) => (w', Throw e)
  | (w', Crash) => (w', Crash)
  | (w', Fuel) => (w', Fuel)
  end.
Notation "'do!' x <- m ; k" := (bind m (fun x => k)) (at level 200, x name, m at level 100, k at level 200).

Definition host {A} (r : W * (exc + A)) : W * res A :=
  match r with
  | (w, inl e) => (w, Throw e)
  | (w, inr a) => (w, Ok a)
  end.
Definition m_get (v : val) (p : pname) : M val := fun w => host (get w v p).
Definition m_call (f this : val) (args : list val) : M val := fun w => host (call w f this args).
Definition m_proto (v : val) : M val := fun w =>
  match v with
  | Obj n =>
    match host (proto_of w n) with
    | (w', Ok (Some p)) => (w', Ok (Obj p))
    | (w', Ok None) => (w', Ok Null)
    | (w', Throw e) => (w', Throw e)
    | (w', Crash) => (w', Crash)
    | (w', Fuel) => (w', Fuel)
    end
  | _ => (w, Crash)
  end.

(** include/ratjs/rjs_operation.h:1248-1269 *)
Definition get_method (v : val) (p : pname) : M val :=
  do! f <- m_get v p;
  match f with
  | Undef => ret f
  | Null => ret Undef
  | _ => if callable f then ret f else throw EType
  end.

(** src/lib/rjs_object.c:1414-1451 — the loop over the two function names *)
Fixpoint try_funcs (v : val) (funcs : list pname) : M val :=
  match funcs with
  | [] => throw EType
  | func :: rest =>
    do! to_prim <- m_get v func;
    if callable to_prim then
      do! prim <- m_call to_prim v [];
      if negb (is_obj prim) then ret prim else try_funcs v rest
    else try_funcs v rest
  end.
Definition ordinary_to_primitive (v : val) (h : hint) : M val :=
  try_funcs v (match h with
               | HString => [PToString; PValueOf]
               | _ => [PValueOf; PToString]
               end).
(** src/lib/rjs_object.c:1463-1500 *)
Definition object_to_primitive (v : val) (h : hint) : M val :=
  do! to_prim <- get_method v PToPrimitive;
  match to_prim with
  | Undef => ordinary_to_primitive v h
  | _ =>
    do! prim <- m_call to_prim v [Str (hint_text h)];
    if is_obj prim then throw EType else ret prim
  end.
(** include/ratjs/rjs_operation.h:479-492 *)
Definition to_primitive (v : val) (h : hint) : M val :=
  if is_obj v then object_to_primitive v h else ret v.

(** the numbers NaN, +0 and 1 *)
Definition nan : Z := 0x7ff8000000000000.
Definition one : Z := 0x3ff0000000000000.
Definition bool_num (b : bool) : Z := if b then one else 0.
(** include/ratjs/rjs_operation.h:620-666 — [rjs_to_number] of a value which is
    not an object *)
Definition prim_to_number (v : val) : M Z :=
  match v with
  | Undef => ret nan
  | Null => ret 0
  | Bool b => ret (bool_num b)
  | Num n => ret n
  | Str s => ret (str_num s)
  | Sym _ | Big _ => throw EType
  | Obj _ => crash
  end.
(** include/ratjs/rjs_operation.h:620-666, src/lib/rjs_object.c:1509-1523 *)
Definition to_number (v : val) : M Z :=
  if is_obj v then
    do! prim <- object_to_primitive v HNumber;
    prim_to_number prim
  else prim_to_number v.
(** include/ratjs/rjs_operation.h:675-698 *)
Definition to_numeric (v : val) : M val :=
  do! rv <- to_primitive v HNumber;
  match rv with
  | Big _ => ret rv
  | _ => do! n <- to_number rv; ret (Num n)
  end.
(** include/ratjs/rjs_operation.h:561-574, src/lib/rjs_operation.c:113-152 *)
Definition to_string_prim (v : val) : M text :=
  match v with
  | Undef => ret [117; 110; 100; 101; 102; 105; 110; 101; 100]
  | Null => ret [110; 117; 108; 108]
  | Bool true => ret [116; 114; 117; 101]
  | Bool false => ret [102; 97; 108; 115; 101]
  | Num n => ret (num_str n)
  | Big z => ret (big_str z)
  | Str s => ret s
  | Sym _ => throw EType
  | Obj _ => crash
  end.
Definition to_string (v : val) : M text :=
  if is_obj v then
    do! s <- object_to_primitive v HString;
    to_string_prim s
  else to_string_prim v.

Definition numeric_or_key (v : val) : bool :=
  match v with Str _ | Num _ | Sym _ | Big _ => true | _ => false end.

(** src/lib/rjs_operation.c:1336-1470 — [rjs_is_loosely_equal]; [fuel] bounds
    the recursion *)
Fixpoint loosely_equal (fuel : nat) (v1 v2 : val) : M bool :=
  match fuel with
  | O => fun w => (w, Fuel)
  | S fuel' =>
    if vty_eqb (ty v1) (ty v2) then lift (strictly_equal v1 v2) else
    match v1, v2 with
    | Null, Undef => ret true
    | Undef, Null => ret true
    | Num _, Str _ => do! n <- to_number v2; loosely_equal fuel' v1 (Num n)
    | Str _, Num _ => do! n <- to_number v1; loosely_equal fuel' (Num n) v2
    | Big _, Str s =>
      match str_big s with
      | None => ret false
      | Some z => loosely_equal fuel' v1 (Big z)
      end
    | Str _, Big _ => loosely_equal fuel' v2 v1
    | Bool _, _ => do! n <- to_number v1; loosely_equal fuel' (Num n) v2
    | _, Bool _ => do! n <- to_number v2; loosely_equal fuel' v1 (Num n)
    | _, _ =>
      if numeric_or_key v1 && is_obj v2 then
        do! tmp <- to_primitive v2 HDefault; loosely_equal fuel' v1 tmp
      else if numeric_or_key v2 && is_obj v1 then
        do! tmp <- to_primitive v1 HDefault; loosely_equal fuel' tmp v2
      else
        match v1, v2 with
        | Big z, Num n => ret (is_equal (big_compare_number z n))
        | Num n, Big z => ret (is_equal (big_compare_number z n))
        | _, _ => ret false
        end
    end
  end.
Definition eq_depth : nat := 6%nat.
(** src/lib/rjs_bc_call.c:692-710 — [bc_eq], [bc_ne], [bc_strict_eq],
    [bc_strict_ne] *)
Definition bc_eq (v1 v2 : val) : M bool := loosely_equal eq_depth v1 v2.
Definition bc_ne (v1 v2 : val) : M bool := do! r <- loosely_equal eq_depth v1 v2; ret (negb r).
Definition bc_strict_eq (v1 v2 : val) : M bool := lift (strictly_equal v1 v2).
Definition bc_strict_ne (v1 v2 : val) : M bool :=
  do! r <- lift (strictly_equal v1 v2); ret (negb r).

(** src/lib/rjs_bc_call.c:594-670 — [do_bc_compare] *)
Definition do_bc_compare (v1 v2 : val) : M cmp :=
  do! p1 <- to_primitive v1 HDefault;
  do! p2 <- to_primitive v2 HDefault;
  match p1, p2 with
  | Str a, Str b => ret (string_compare a b)
  | Str a, Big z =>
    match str_big a with
    | None => ret UNDEFINED
    | Some n1 => ret (big_compare n1 z)
    end
  | Big z, Str b =>
    match str_big b with
    | None => ret UNDEFINED
    | Some n2 => ret (big_compare z n2)
    end
  | _, _ =>
    do! n1 <- to_numeric p1;
    do! n2 <- to_numeric p2;
    match n1, n2 with
    | Big a, Big b => ret (big_compare a b)
    | Num a, Num b => ret (number_compare a b)
    | Num a, Big b => ret (swap (big_compare_number b a))
    | Big a, Num b => ret (big_compare_number a b)
    | _, _ => crash
    end
  end.
(** src/lib/rjs_bc_call.c:672-690 *)
Definition bc_lt (v1 v2 : val) : M bool :=
  do! r <- do_bc_compare v1 v2; ret (match r with LESS => true | _ => false end).
Definition bc_le (v1 v2 : val) : M bool :=
  do! r <- do_bc_compare v1 v2; ret (match r with LESS | EQUAL => true | _ => false end).
Definition bc_gt (v1 v2 : val) : M bool :=
  do! r <- do_bc_compare v1 v2; ret (match r with GREATER => true | _ => false end).
Definition bc_ge (v1 v2 : val) : M bool :=
  do! r <- do_bc_compare v1 v2; ret (match r with GREATER | EQUAL => true | _ => false end).

(** the four instructions, by their operator *)
Definition bc_rel (op : relop) : val -> val -> M bool :=
  match op with RLt => bc_lt | RLe => bc_le | RGt => bc_gt | RGe => bc_ge end.

Definition is_str (v : val) : bool := match v with Str _ => true | _ => false end.
(** src/lib/rjs_bc_call.c:448-497 — [do_bc_add] *)
Definition do_bc_add (v1 v2 : val) : M val :=
  do! lp <- to_primitive v1 HDefault;
  do! rp <- to_primitive v2 HDefault;
  if is_str lp || is_str rp then
    do! ls <- to_string lp;
    do! rs <- to_string rp;
    ret (Str (ls ++ rs))
  else
    do! ln <- to_numeric lp;
    do! rn <- to_numeric rp;
    if negb (vty_eqb (ty ln) (ty rn)) then throw EType else
    match ln, rn with
    | Big a, Big b => ret (Big (a + b))
    | Num a, Num b => ret (Num (num_add a b))
    | _, _ => crash
    end.
(** src/lib/rjs_bc_call.c:503-548 — NUMERIC_BINARY_OP *)
Definition do_bc_numeric (o : nop) (v1 v2 : val) : M val :=
  do! ln <- to_numeric v1;
  do! rn <- to_numeric v2;
  if negb (vty_eqb (ty ln) (ty rn)) then throw EType else
  match ln, rn with
  | Big a, Big b => do! z <- lift (big_op o a b); ret (Big z)
  | Num a, Num b => ret (Num (num_op o a b))
  | _, _ => crash
  end.

(** src/lib/rjs_operation.c:1177-1220 — [rjs_type_of] *)
Inductive tname := NUndefined | NObject | NBoolean | NString | NNumber | NSymbol | NBigint | NFunction.
Definition type_of (v : val) : tname :=
  match ty v with
  | TUndef => NUndefined
  | TNull => NObject
  | TBool => NBoolean
  | TStr => NString
  | TNum => NNumber
  | TSym => NSymbol
  | TBig => NBigint
  | TObj => if callable v then NFunction else NObject
  end.

(** include/ratjs/rjs_operation.h:425-468 — [rjs_to_boolean] *)
Definition to_boolean (v : val) : bool :=
  match v with
  | Undef | Null => false
  | Bool b => b
  | Num n => negb (is_nan n || c_eq n 0)
  | Str s => match s with [] => false | _ => true end
  | Big z => negb (z =? 0)
  | Sym _ | Obj _ => true
  end.

(** src/lib/rjs_operation.c:1256-1275 — the walk of
    [rjs_ordinary_has_instance]; the answer comes with the value left in the
    variable [o] of the caller, which the walk overwrites *)
Fixpoint proto_walk (fuel : nat) (proto o : val) : M (bool * val) :=
  match fuel with
  | O => fun w => (w, Fuel)
  | S fuel' =>
    do! t <- m_proto o;
    match t with
    | Null => ret (false, o)
    | _ =>
      match t, proto with
      | Obj a, Obj b => if Nat.eqb a b then ret (true, o) else proto_walk fuel' proto t
      | _, _ => proto_walk fuel' proto t
      end
    end
  end.
(** src/lib/rjs_operation.c:1231-1282 and 1293-1325; the two functions call
    each other through bound functions *)
Fixpoint ordinary_has_instance (fuel : nat) (c o : val) {struct fuel} : M (bool * val) :=
  match fuel with
  | O => fun w => (w, Fuel)
  | S fuel' =>
    match c with
    | Obj n =>
      match bound n with
      | Some target => instance_of fuel' o target
      | None =>
        if negb (is_obj o) then ret (false, o) else
        do! proto <- m_get c PPrototype;
        if negb (is_obj proto) then throw EType
        else proto_walk fuel' proto o
      end
    | _ =>
      (* not an object: the assertion of [rjs_object_get] fails *)
      if negb (is_obj o) then ret (false, o) else crash
    end
  end
with instance_of (fuel : nat) (v t : val) {struct fuel} : M (bool * val) :=
  match fuel with
  | O => fun w => (w, Fuel)
  | S fuel' =>
    if negb (is_obj t) then throw EType else
    do! fn <- get_method t PHasInstance;
    match fn with
    | Undef =>
      if negb (callable t) then throw EType
      else ordinary_has_instance fuel' t v
    | _ =>
      do! rv <- m_call fn t [v];
      ret (to_boolean rv, v)
    end
  end.
(** src/lib/rjs_bc_call.c:728-731 — [bc_instanceof] *)
Definition bc_instanceof (fuel : nat) (v t : val) : M bool :=
  do! r <- instance_of fuel v t; ret (fst r).
End Ops.
