(** Model of the methods of Array.prototype.

    Source: /repo/src/lib/rjs_array_object_inc.c lines 303-1720 and 1722-3010
    (without sort, toSorted and the creation of iterators), the index helpers in
    /repo/include/ratjs/rjs_operation.h lines 1146-1168, 1306-1330, 1521-1545,
    1605-1630 and rjs_length_of_array_like in rjs_operation.c lines 479-496.

    Everything an object, a function or a conversion can do is an operation of a
    [world]: its state is arbitrary, each operation may change it, and may throw.
    So a world can answer as any mix of ordinary objects, proxies, getters and
    callbacks, and can record what it was asked.  Pure tests are functions.

    Simplifications.  Numbers that are returned or passed are integers.  A key is
    an integer or one of the names the methods use; the integer stands for the
    canonical string in both representations of the code (index string below
    2^32-1, else the string of the number, C36 and C04).  Counters of type int64_t
    stay below 2^54 and are unbounded here.  The recursion of flat is bounded by
    fuel; running out of it is an outcome of its own. *)
From Coq Require Import List ZArith Bool.
Import ListNotations.
Local Open Scope Z_scope.

Inductive val := Undef | Null | Bool (b : bool) | Num (n : Z) | Str (s : list Z) | Ref (x : Z).
Inductive name := Length | Constructor | Species | Spreadable | Join | ToLocaleString.
Inductive key := Idx (i : Z) | Name (n : name).
Inductive exn := TypeError | RangeError | User (v : val).
(** [Bad] undefined behaviour of C, [Deep] out of fuel *)
Inductive out (A : Type) := Ok (a : A) | Throw (e : exn) | Bad | Deep.
Arguments Ok {A}. Arguments Throw {A}. Arguments Bad {A}. Arguments Deep {A}.
Definition M (W A : Type) := W -> W * out A.

(** ToIntegerOrInfinity gives an integral double *)
Inductive xint := Fin (z : Z) | PInf | NInf.

Record world := mkW {
  W : Type;
  to_object : val -> M W val;
  len_of : val -> M W Z;
  to_int : val -> M W xint;
  to_str : val -> M W (list Z);
  is_array : val -> M W bool;
  has : val -> key -> M W bool;
  get : val -> key -> M W val;
  set : val -> key -> val -> M W unit;
  del : val -> key -> M W unit;
  create : val -> key -> val -> M W unit;
  call : val -> val -> list val -> M W val;
  construct : val -> list val -> M W val;
  new_array : Z -> M W val;
  invoke : val -> name -> M W val;
  foreign_array : val -> M W bool;   (* rjs_get_function_realm and the test that follows it *)
  callable : val -> bool;
  is_ctor : val -> bool;
  truthy : val -> bool;
  same_zero : val -> val -> bool;
  strict_eq : val -> val -> bool
}.

Definition ret {W A} (a : A) : M W A := fun w => (w, Ok a).
Definition throw {W A} (e : exn) : M W A := fun w => (w, Throw e).
Definition bad {W A} : M W A := fun w => (w, Bad).
Definition deep {W A} : M W A := fun w => (w, Deep).
Definition bind {W A B} (m : M W A) (f : A -> M W B) : M W B :=
  fun w => match m w with
           | (w, Ok a) => f a w
           | (w, Throw e) => (w, Throw e)
           | (w, Bad) => (w, Bad)
           | (w, Deep) => (w, Deep)
           end.
Notation "x <- m ;; k" := (bind m (fun x => k)) (at level 61, m at next level, right associativity).
Notation "m ;;; k" := (bind m (fun _ => k)) (at level 61, right associativity).

(** A counting loop of the code: [n] rounds, each goes on with a new state or
    leaves the function. *)
Fixpoint loop {W S R} (n : nat) (body : S -> M W (S + R)) (s : S) : M W (S + R) :=
  match n with
  | O => ret (inl s)
  | Datatypes.S n => r <- body s ;; match r with inl s => loop n body s | inr x => ret (inr x) end
  end.
Definition next {W S R} (s : S) : M W (S + R) := ret (inl s).
Definition leave {W S R} (x : R) : M W (S + R) := ret (inr x).
(** the value of the function, or the state after the loop *)
Definition after {W S R} (r : S + R) (k : S -> M W R) : M W R :=
  match r with inl s => k s | inr x => ret x end.
(** rounds of [for (k = a; k < b; k ++)] *)
Definition rounds (a b : Z) : nat := Z.to_nat (b - a).
(** loops that never leave the function *)
Definition loop_ {W S} (n : nat) (body : S -> M W S) (s : S) : M W S :=
  r <- loop (R := Empty_set) n (fun s => s' <- body s ;; next s') s ;;
  match r with inl s => ret s | inr e => match e with end end.

(** RJS_MAX_INT, rjs_types.h:82 *)
Definition max_int : Z := 9007199254740991.

(** *** Doubles that are integers *)
(** rounding of an integer to 53 bits, half to even *)
Definition rnd (x : Z) : Z :=
  let a := Z.abs x in
  if a <? 9007199254740992 then x
  else
    let u := 2 ^ (Z.log2 a - 52) in
    let q := a / u in
    let r := a mod u in
    let q := if (2 * r <? u) || ((2 * r =? u) && Z.even q) then q else q + 1 in
    Z.sgn x * (q * u).
Definition dadd (a : Z) (x : xint) : xint :=
  match x with Fin z => Fin (rnd (a + z)) | PInf => PInf | NInf => NInf end.
Definition dneg (x : xint) : bool := match x with Fin z => z <? 0 | PInf => false | NInf => true end.
Definition is_ninf (x : xint) : bool := match x with NInf => true | _ => false end.
Definition is_pinf (x : xint) : bool := match x with PInf => true | _ => false end.
Definition dge (x : xint) (l : Z) : bool := match x with Fin z => l <=? z | PInf => true | NInf => false end.
(** RJS_MIN(x, len), RJS_MAX(x, 0) as doubles *)
Definition dmin (x : xint) (l : Z) : xint :=
  match x with Fin z => if z <? l then Fin z else Fin l | PInf => Fin l | NInf => NInf end.
Definition dmax (x : xint) (l : Z) : xint :=
  match x with Fin z => if l <? z then Fin z else Fin l | PInf => PInf | NInf => Fin l end.
(** conversion to int64_t; undefined outside the range *)
Definition to_i64 {W} (x : xint) : M W Z :=
  match x with
  | Fin z => if (-9223372036854775808 <=? z) && (z <? 9223372036854775808) then ret z else bad
  | _ => bad
  end.

Section S.
Variable w : world.
Notation M := (M (W w)).

Definition arg (args : list val) (i : nat) : val := nth i args Undef.
Definition argc (args : list val) : Z := Z.of_nat (length args).
Definition is_undef (v : val) : bool := match v with Undef => true | _ => false end.
Definition is_null (v : val) : bool := match v with Null => true | _ => false end.
Definition is_object (v : val) : bool := match v with Ref _ => true | _ => false end.

(** The clamp of a relative index: lines 540-545, 779-784, 2104-2109, ... *)
Definition clamp (rel : xint) (len : Z) : M Z :=
  if is_ninf rel then ret 0
  else if dneg rel then to_i64 (dmax (dadd len rel) 0)
  else to_i64 (dmin rel len).

(** Array.prototype.at, lines 303-339 *)
Definition p_at (this : val) (args : list val) : M val :=
  o <- to_object w this ;; len <- len_of w o ;;
  n <- to_int w (arg args 0) ;;
  let k := if dneg n then dadd len n else n in
  if dneg k || dge k len then ret Undef
  else k <- to_i64 k ;; get w o (Idx k).

(** array_species_create, lines 341-397; an error of rjs_is_array counts as true *)
Definition is_array_or_error (o : val) : M bool :=
  fun s => match is_array w o s with (s, Throw _) => (s, Ok true) | r => r end.
Definition species_create (o : val) (len : Z) : M val :=
  b <- is_array_or_error o ;;
  if negb b then new_array w len
  else
    c <- get w o (Name Constructor) ;;
    c <- (if is_ctor w c then f <- foreign_array w c ;; ret (if f then Undef else c) else ret c) ;;
    c <- (if is_object c then sc <- get w c (Name Species) ;; ret (if is_null sc then Undef else sc) else ret c) ;;
    if is_undef c then new_array w len
    else if negb (is_ctor w c) then throw TypeError
    else construct w c [Num len].

(** is_concat_spreadable, lines 399-421 *)
Definition concat_spreadable (e : val) : M bool :=
  if negb (is_object e) then ret false
  else
    f <- get w e (Name Spreadable) ;;
    if negb (is_undef f) then ret (truthy w f) else is_array w e.

(** Array.prototype.concat, lines 423-507 *)
Definition concat_one (a : val) (n : Z) (e : val) : M Z :=
  b <- concat_spreadable e ;;
  if b then
    len <- len_of w e ;;
    if n + len >? max_int then throw TypeError
    else
      r <- loop_ (rounds 0 len) (fun '(n, k) =>
        b <- has w e (Idx k) ;;
        (if b then v <- get w e (Idx k) ;; create w a (Idx n) v else ret tt) ;;;
        ret (n + 1, k + 1)) (n, 0) ;;
      ret (fst r)
  else if n >=? max_int then throw TypeError
  else create w a (Idx n) e ;;; ret (n + 1).
Fixpoint concat_all (a : val) (n : Z) (es : list val) : M Z :=
  match es with
  | [] => ret n
  | e :: es => n <- concat_one a n e ;; concat_all a n es
  end.
Definition p_concat (this : val) (args : list val) : M val :=
  o <- to_object w this ;;
  a <- species_create o 0 ;;
  n <- concat_all a 0 (o :: args) ;;
  set w a (Name Length) (Num n) ;;; ret a.

(** Array.prototype.copyWithin, lines 509-614 *)
Definition p_copyWithin (this : val) (args : list val) : M val :=
  o <- to_object w this ;; len <- len_of w o ;;
  rt <- to_int w (arg args 0) ;; to <- clamp rt len ;;
  rs <- to_int w (arg args 1) ;; from <- clamp rs len ;;
  re <- (if is_undef (arg args 2) then ret (Fin len) else to_int w (arg args 2)) ;;
  final <- clamp re len ;;
  let count := Z.min (final - from) (len - to) in
  let '(from, to, dir) :=
    if (from <? to) && (to <? from + count) then (from + count - 1, to + count - 1, -1) else (from, to, 1) in
  loop_ (Z.to_nat count) (fun '(from, to) =>
    b <- has w o (Idx from) ;;
    (if b then v <- get w o (Idx from) ;; set w o (Idx to) v else del w o (Idx to)) ;;;
    ret (from + dir, to + dir)) (from, to) ;;;
  ret o.

(** Array.prototype.every, lines 702-758 *)
Definition p_every (this : val) (args : list val) : M val :=
  o <- to_object w this ;; len <- len_of w o ;;
  if negb (callable w (arg args 0)) then throw TypeError
  else
    r <- loop (rounds 0 len) (fun k =>
      b <- has w o (Idx k) ;;
      if b then
        v <- get w o (Idx k) ;; t <- call w (arg args 0) (arg args 1) [v; Num k; o] ;;
        if negb (truthy w t) then leave (Bool false) else next (k + 1)
      else next (k + 1)) 0 ;;
    after r (fun _ => ret (Bool true)).

(** Array.prototype.fill, lines 760-812 *)
Definition p_fill (this : val) (args : list val) : M val :=
  o <- to_object w this ;; len <- len_of w o ;;
  rs <- to_int w (arg args 1) ;; k <- clamp rs len ;;
  re <- (if is_undef (arg args 2) then ret (Fin len) else to_int w (arg args 2)) ;; final <- clamp re len ;;
  loop_ (rounds k final) (fun k => set w o (Idx k) (arg args 0) ;;; ret (k + 1)) k ;;;
  ret o.

(** Array.prototype.filter, lines 814-878 *)
Definition p_filter (this : val) (args : list val) : M val :=
  o <- to_object w this ;; len <- len_of w o ;;
  if negb (callable w (arg args 0)) then throw TypeError
  else
    a <- species_create o 0 ;;
    loop_ (rounds 0 len) (fun '(k, to) =>
      b <- has w o (Idx k) ;;
      if b then
        v <- get w o (Idx k) ;; t <- call w (arg args 0) (arg args 1) [v; Num k; o] ;;
        if truthy w t then create w a (Idx to) v ;;; ret (k + 1, to + 1) else ret (k + 1, to)
      else ret (k + 1, to)) (0, 0) ;;;
    ret a.

(** Array.prototype.find and findIndex, lines 880-972 *)
Definition find_up (result : Z -> val -> val) (none : val) (this : val) (args : list val) : M val :=
  o <- to_object w this ;; len <- len_of w o ;;
  if negb (callable w (arg args 0)) then throw TypeError
  else
    r <- loop (rounds 0 len) (fun k =>
      v <- get w o (Idx k) ;; t <- call w (arg args 0) (arg args 1) [v; Num k; o] ;;
      if truthy w t then leave (result k v) else next (k + 1)) 0 ;;
    after r (fun _ => ret none).
Definition p_find := find_up (fun _ v => v) Undef.
Definition p_findIndex := find_up (fun k _ => Num k) (Num (-1)).
(** findLast and findLastIndex, lines 974-1066; [k] is one more than the index *)
Definition find_down (result : Z -> val -> val) (none : val) (this : val) (args : list val) : M val :=
  o <- to_object w this ;; len <- len_of w o ;;
  if negb (callable w (arg args 0)) then throw TypeError
  else
    r <- loop (rounds 0 len) (fun k =>
      v <- get w o (Idx (k - 1)) ;; t <- call w (arg args 0) (arg args 1) [v; Num (k - 1); o] ;;
      if truthy w t then leave (result (k - 1) v) else next (k - 1)) len ;;
    after r (fun _ => ret none).
Definition p_findLast := find_down (fun _ v => v) Undef.
Definition p_findLastIndex := find_down (fun k _ => Num k) (Num (-1)).

(** flatten_into_array, lines 1068-1154 *)
Definition dpred (d : xint) : xint := match d with PInf => PInf | d => dadd (-1) d end.
Definition dpos (d : xint) : bool := match d with Fin z => 0 <? z | PInf => true | NInf => false end.
Fixpoint flatten (fuel : nat) (target source : val) (slen start : Z) (depth : xint) (f : option (val * val)) : M Z :=
  match fuel with
  | O => deep
  | Datatypes.S fuel =>
      r <- loop_ (rounds 0 slen) (fun '(i, t) =>
        b <- has w source (Idx i) ;;
        if b then
          e <- get w source (Idx i) ;;
          e <- match f with Some (fn, this_arg) => call w fn this_arg [e; Num i; source] | None => ret e end ;;
          fl <- (if dpos depth then is_array w e else ret false) ;;
          if fl then
            el <- len_of w e ;;
            t <- flatten fuel target e el t (dpred depth) None ;;
            ret (i + 1, t)
          else if t >=? max_int then throw TypeError
          else create w target (Idx t) e ;;; ret (i + 1, t + 1)
        else ret (i + 1, t)) (0, start) ;;
      ret (snd r)
  end.
(** Array.prototype.flat and flatMap, lines 1156-1231 *)
Definition p_flat (fuel : nat) (this : val) (args : list val) : M val :=
  o <- to_object w this ;; len <- len_of w o ;;
  d <- (if is_undef (arg args 0) then ret (Fin 1)
        else d <- to_int w (arg args 0) ;; ret (if dneg d then Fin 0 else d)) ;;
  a <- species_create o 0 ;;
  flatten fuel a o len 0 d None ;;; ret a.
Definition p_flatMap (fuel : nat) (this : val) (args : list val) : M val :=
  o <- to_object w this ;; len <- len_of w o ;;
  if negb (callable w (arg args 0)) then throw TypeError
  else
    a <- species_create o 0 ;;
    flatten fuel a o len 0 (Fin 1) (Some (arg args 0, arg args 1)) ;;; ret a.

(** Array.prototype.forEach, lines 1233-1283 *)
Definition p_forEach (this : val) (args : list val) : M val :=
  o <- to_object w this ;; len <- len_of w o ;;
  if negb (callable w (arg args 0)) then throw TypeError
  else
    loop_ (rounds 0 len) (fun k =>
      b <- has w o (Idx k) ;;
      (if b then v <- get w o (Idx k) ;; call w (arg args 0) (arg args 1) [v; Num k; o] ;;; ret tt else ret tt) ;;;
      ret (k + 1)) 0 ;;;
    ret Undef.

(** the start of includes and indexOf, lines 1315-1333, 1382-1400 *)
Definition search_start (len : Z) (n : xint) : M Z :=
  if dneg n then (if is_ninf n then ret 0 else k <- to_i64 (dadd len n) ;; ret (if k <? 0 then 0 else k))
  else to_i64 n.
(** Array.prototype.includes, lines 1285-1347 *)
Definition p_includes (this : val) (args : list val) : M val :=
  o <- to_object w this ;; len <- len_of w o ;;
  if len =? 0 then ret (Bool false)
  else
    n <- to_int w (arg args 1) ;;
    if is_pinf n then ret (Bool false)
    else
      k <- search_start len n ;;
      r <- loop (rounds k len) (fun k =>
        v <- get w o (Idx k) ;;
        if same_zero w v (arg args 0) then leave (Bool true) else next (k + 1)) k ;;
      after r (fun _ => ret (Bool false)).
(** Array.prototype.indexOf, lines 1349-1426 *)
Definition p_indexOf (this : val) (args : list val) : M val :=
  o <- to_object w this ;; len <- len_of w o ;;
  if len =? 0 then ret (Num (-1))
  else
    n <- to_int w (arg args 1) ;;
    if is_pinf n then ret (Num (-1))
    else
      k <- search_start len n ;;
      r <- loop (rounds k len) (fun k =>
        b <- has w o (Idx k) ;;
        if b then
          v <- get w o (Idx k) ;;
          if strict_eq w v (arg args 0) then leave (Num k) else next (k + 1)
        else next (k + 1)) k ;;
      after r (fun _ => ret (Num (-1))).
(** Array.prototype.lastIndexOf, lines 1494-1570 *)
Definition p_lastIndexOf (this : val) (args : list val) : M val :=
  o <- to_object w this ;; len <- len_of w o ;;
  if len =? 0 then ret (Num (-1))
  else
    n <- (if argc args >? 1 then to_int w (arg args 1) else ret (Fin (len - 1))) ;;
    if is_ninf n then ret (Num (-1))
    else
      k <- (if dneg n then to_i64 (dadd len n) else to_i64 (dmin n (len - 1))) ;;
      r <- loop (Z.to_nat (k + 1)) (fun k =>
        b <- has w o (Idx k) ;;
        if b then
          v <- get w o (Idx k) ;;
          if strict_eq w v (arg args 0) then leave (Num k) else next (k - 1)
        else next (k - 1)) k ;;
      after r (fun _ => ret (Num (-1))).

(** Array.prototype.join and toLocaleString, lines 1428-1476, 2561-2604 *)
Definition comma : list Z := [44].
Definition p_join (this : val) (args : list val) : M val :=
  o <- to_object w this ;; len <- len_of w o ;;
  ss <- (if is_undef (arg args 0) then ret comma else to_str w (arg args 0)) ;;
  r <- loop_ (rounds 0 len) (fun '(k, ucb) =>
    let ucb := if k >? 0 then ucb ++ ss else ucb in
    v <- get w o (Idx k) ;;
    if negb (is_undef v) && negb (is_null v) then s <- to_str w v ;; ret (k + 1, ucb ++ s) else ret (k + 1, ucb)) (0, []) ;;
  ret (Str (snd r)).
Definition p_toLocaleString (this : val) (args : list val) : M val :=
  o <- to_object w this ;; len <- len_of w o ;;
  r <- loop_ (rounds 0 len) (fun '(k, ucb) =>
    let ucb := if k >? 0 then ucb ++ comma else ucb in
    v <- get w o (Idx k) ;;
    if negb (is_undef v) && negb (is_null v)
    then x <- invoke w v ToLocaleString ;; s <- to_str w x ;; ret (k + 1, ucb ++ s) else ret (k + 1, ucb)) (0, []) ;;
  ret (Str (snd r)).

(** Array.prototype.map, lines 1572-1630 *)
Definition p_map (this : val) (args : list val) : M val :=
  o <- to_object w this ;; len <- len_of w o ;;
  if negb (callable w (arg args 0)) then throw TypeError
  else
    a <- species_create o len ;;
    loop_ (rounds 0 len) (fun k =>
      b <- has w o (Idx k) ;;
      (if b then v <- get w o (Idx k) ;; m <- call w (arg args 0) (arg args 1) [v; Num k; o] ;; create w a (Idx k) m
       else ret tt) ;;;
      ret (k + 1)) 0 ;;;
    ret a.

(** Array.prototype.pop and push, lines 1632-1720 *)
Definition p_pop (this : val) (args : list val) : M val :=
  o <- to_object w this ;; len <- len_of w o ;;
  if len =? 0 then set w o (Name Length) (Num 0) ;;; ret Undef
  else
    v <- get w o (Idx (len - 1)) ;; del w o (Idx (len - 1)) ;;;
    set w o (Name Length) (Num (len - 1)) ;;; ret v.
Fixpoint set_items (o : val) (k : Z) (items : list val) : M Z :=
  match items with
  | [] => ret k
  | v :: items => set w o (Idx k) v ;;; set_items o (k + 1) items
  end.
Definition p_push (this : val) (args : list val) : M val :=
  o <- to_object w this ;; len <- len_of w o ;;
  if len + argc args >? max_int then throw TypeError
  else
    len <- set_items o len args ;;
    set w o (Name Length) (Num len) ;;; ret (Num len).

(** Array.prototype.reduce, lines 1722-1818 *)
Definition p_reduce (this : val) (args : list val) : M val :=
  o <- to_object w this ;; len <- len_of w o ;;
  if negb (callable w (arg args 0)) then throw TypeError
  else if (len =? 0) && (argc args <? 2) then throw TypeError
  else
    s <- (if argc args >=? 2 then ret (0, arg args 1)
          else
            r <- loop (rounds 0 len) (fun k =>
              b <- has w o (Idx k) ;;
              if b then v <- get w o (Idx k) ;; leave (k + 1, v) else next (k + 1)) 0 ;;
            match r with inr s => ret s | inl _ => throw TypeError end) ;;
    r <- loop_ (rounds (fst s) len) (fun '(k, acc) =>
      b <- has w o (Idx k) ;;
      if b then v <- get w o (Idx k) ;; acc <- call w (arg args 0) Undef [acc; v; Num k; o] ;; ret (k + 1, acc)
      else ret (k + 1, acc)) s ;;
    ret (snd r).
(** Array.prototype.reduceRight, lines 1820-1916 *)
Definition p_reduceRight (this : val) (args : list val) : M val :=
  o <- to_object w this ;; len <- len_of w o ;;
  if negb (callable w (arg args 0)) then throw TypeError
  else if (len =? 0) && (argc args <? 2) then throw TypeError
  else
    s <- (if argc args >=? 2 then ret (len - 1, arg args 1)
          else
            r <- loop (Z.to_nat (len - 1 + 1)) (fun k =>
              b <- has w o (Idx k) ;;
              if b then v <- get w o (Idx k) ;; leave (k - 1, v) else next (k - 1)) (len - 1) ;;
            match r with inr s => ret s | inl _ => throw TypeError end) ;;
    r <- loop_ (Z.to_nat (fst s + 1)) (fun '(k, acc) =>
      b <- has w o (Idx k) ;;
      if b then v <- get w o (Idx k) ;; acc <- call w (arg args 0) Undef [acc; v; Num k; o] ;; ret (k - 1, acc)
      else ret (k - 1, acc)) s ;;
    ret (snd r).

(** Array.prototype.reverse, lines 1918-2005; [lower_v] and [upper_v] keep their
    values from one round to the next *)
Definition p_reverse (this : val) (args : list val) : M val :=
  o <- to_object w this ;; len <- len_of w o ;;
  loop_ (rounds 0 (len / 2)) (fun '(lower, lv, uv) =>
    let upper := len - lower - 1 in
    le <- has w o (Idx lower) ;; lv <- (if le then get w o (Idx lower) else ret lv) ;;
    ue <- has w o (Idx upper) ;; uv <- (if ue then get w o (Idx upper) else ret uv) ;;
    (if le && ue then set w o (Idx lower) uv ;;; set w o (Idx upper) lv
     else if ue then set w o (Idx lower) uv ;;; del w o (Idx upper)
     else if le then del w o (Idx lower) ;;; set w o (Idx upper) lv
     else ret tt) ;;;
    ret (lower + 1, lv, uv)) (0, Undef, Undef) ;;;
  ret o.

(** Array.prototype.shift, lines 2007-2074 *)
Definition p_shift (this : val) (args : list val) : M val :=
  o <- to_object w this ;; len <- len_of w o ;;
  if len =? 0 then set w o (Name Length) (Num 0) ;;; ret Undef
  else
    first <- get w o (Idx 0) ;;
    loop_ (rounds 1 len) (fun k =>
      b <- has w o (Idx k) ;;
      (if b then v <- get w o (Idx k) ;; set w o (Idx (k - 1)) v else del w o (Idx (k - 1))) ;;;
      ret (k + 1)) 1 ;;;
    del w o (Idx (len - 1)) ;;;
    set w o (Name Length) (Num (len - 1)) ;;; ret first.

(** Array.prototype.slice, lines 2076-2165 *)
Definition p_slice (this : val) (args : list val) : M val :=
  o <- to_object w this ;; len <- len_of w o ;;
  rs <- to_int w (arg args 0) ;; k <- clamp rs len ;;
  re <- (if is_undef (arg args 1) then ret (Fin len) else to_int w (arg args 1)) ;; final <- clamp re len ;;
  let count := if final <? k then 0 else final - k in
  a <- species_create o count ;;
  r <- loop_ (rounds k final) (fun '(k, n) =>
    b <- has w o (Idx k) ;;
    (if b then v <- get w o (Idx k) ;; create w a (Idx n) v else ret tt) ;;;
    ret (k + 1, n + 1)) (k, 0) ;;
  set w a (Name Length) (Num (snd r)) ;;; ret a.

(** Array.prototype.some, lines 2167-2225 *)
Definition p_some (this : val) (args : list val) : M val :=
  o <- to_object w this ;; len <- len_of w o ;;
  if negb (callable w (arg args 0)) then throw TypeError
  else
    r <- loop (rounds 0 len) (fun k =>
      b <- has w o (Idx k) ;;
      if b then
        v <- get w o (Idx k) ;; t <- call w (arg args 0) (arg args 1) [v; Num k; o] ;;
        if truthy w t then leave (Bool true) else next (k + 1)
      else next (k + 1)) 0 ;;
    after r (fun _ => ret (Bool false)).

(** the counts of splice and toSpliced, lines 2433-2467, 2762-2799; RJS_CLAMP is
    RJS_MIN(RJS_MAX(n, 0), max) *)
Definition insert_count (args : list val) : Z := if argc args >? 2 then argc args - 2 else 0.
Definition delete_count (args : list val) (len start : Z) : M Z :=
  if argc args <? 1 then ret 0
  else if argc args <? 2 then ret (len - start)
  else dc <- to_int w (arg args 1) ;; to_i64 (dmin (dmax dc 0) (len - start)).
Definition move (o : val) (from to : Z) : M unit :=
  b <- has w o (Idx from) ;;
  if b then v <- get w o (Idx from) ;; set w o (Idx to) v else del w o (Idx to).

(** Array.prototype.splice, lines 2409-2558 *)
Definition p_splice (this : val) (args : list val) : M val :=
  o <- to_object w this ;; len <- len_of w o ;;
  rs <- to_int w (arg args 0) ;; start <- clamp rs len ;;
  let ins := insert_count args in
  dc <- delete_count args len start ;;
  if len + ins - dc >? max_int then throw TypeError
  else
    a <- species_create o dc ;;
    loop_ (rounds 0 dc) (fun k =>
      b <- has w o (Idx (start + k)) ;;
      (if b then v <- get w o (Idx (start + k)) ;; create w a (Idx k) v else ret tt) ;;;
      ret (k + 1)) 0 ;;;
    set w a (Name Length) (Num dc) ;;;
    (if ins <? dc then
       loop_ (rounds start len) (fun k => move o (k + dc) (k + ins) ;;; ret (k + 1)) start ;;;
       loop_ (rounds (len - dc + ins) len) (fun k => del w o (Idx (k - 1)) ;;; ret (k - 1)) len ;;;
       ret tt
     else if ins >? dc then
       loop_ (Z.to_nat (len - dc - start + 1)) (fun k => move o (k + dc - 1) (k + ins - 1) ;;; ret (k - 1)) (len - dc) ;;;
       ret tt
     else ret tt) ;;;
    set_items o start (skipn 2 args) ;;;
    set w o (Name Length) (Num (len - dc + ins)) ;;; ret a.

(** Array.prototype.toReversed, lines 2606-2656 *)
Definition p_toReversed (this : val) (args : list val) : M val :=
  o <- to_object w this ;; len <- len_of w o ;;
  a <- new_array w len ;;
  loop_ (rounds 0 len) (fun k => v <- get w o (Idx (len - k - 1)) ;; create w a (Idx k) v ;;; ret (k + 1)) 0 ;;;
  ret a.

(** Array.prototype.toSpliced, lines 2741-2857 *)
Fixpoint create_items (a : val) (i : Z) (items : list val) : M Z :=
  match items with
  | [] => ret i
  | v :: items => create w a (Idx i) v ;;; create_items a (i + 1) items
  end.
Definition p_toSpliced (this : val) (args : list val) : M val :=
  o <- to_object w this ;; len <- len_of w o ;;
  rs <- to_int w (arg args 0) ;; start <- clamp rs len ;;
  skip <- delete_count args len start ;;
  let nlen := len - skip + insert_count args in
  if nlen >? max_int then throw TypeError
  else
    a <- new_array w nlen ;;
    i <- loop_ (rounds 0 start) (fun i => v <- get w o (Idx i) ;; create w a (Idx i) v ;;; ret (i + 1)) 0 ;;
    i <- create_items a i (skipn 2 args) ;;
    loop_ (rounds i nlen) (fun '(i, j) => v <- get w o (Idx j) ;; create w a (Idx i) v ;;; ret (i + 1, j + 1)) (i, start + skip) ;;;
    ret a.

(** Array.prototype.toString, lines 2859-2882; [fallback] is Object.prototype.toString *)
Definition p_toString (fallback : val) (this : val) (args : list val) : M val :=
  a <- to_object w this ;; f <- get w a (Name Join) ;;
  call w (if negb (callable w f) then fallback else f) a [].

(** Array.prototype.unshift, lines 2884-2949 *)
Definition p_unshift (this : val) (args : list val) : M val :=
  o <- to_object w this ;; len <- len_of w o ;;
  (if argc args >? 0 then
     if len + argc args >? max_int then throw TypeError
     else
       loop_ (Z.to_nat (len + 1)) (fun k => move o (k - 1) (k + argc args - 1) ;;; ret (k - 1)) len ;;;
       set_items o 0 args ;;; ret tt
   else ret tt) ;;;
  set w o (Name Length) (Num (len + argc args)) ;;; ret (Num (len + argc args)).

(** Array.prototype.with, lines 2967-3030; the result of the definition is not
    tested *)
Definition ignored {A} (m : M A) : M unit := fun s => match m s with (s, Bad) => (s, Bad) | (s, Deep) => (s, Deep) | (s, _) => (s, Ok tt) end.
Definition p_with (this : val) (args : list val) : M val :=
  o <- to_object w this ;; len <- len_of w o ;;
  rel <- to_int w (arg args 0) ;;
  i <- (if dneg rel then to_i64 (dadd len rel) else to_i64 rel) ;;
  if (i <? 0) || (i >=? len) then throw RangeError
  else
    a <- new_array w len ;;
    loop_ (rounds 0 len) (fun k =>
      v <- (if k =? i then ret (arg args 1) else get w o (Idx k)) ;;
      ignored (create w a (Idx k) v) ;;; ret (k + 1)) 0 ;;;
    ret a.

(** The functions of the prototype by name; [fuel] bounds the recursion of flat,
    [fallback] is Object.prototype.toString *)
Inductive meth :=
| At | Concat | CopyWithin | Every | Fill | Filter | Find | FindIndex | FindLast | FindLastIndex
| Flat | FlatMap | ForEach | Includes | IndexOf | JoinM | LastIndexOf | MapM | Pop | Push
| Reduce | ReduceRight | Reverse | Shift | Slice | Some_ | Splice | ToLocaleStringM
| ToReversed | ToSpliced | ToStringM | Unshift | With.
Definition code (fuel : nat) (fallback : val) (m : meth) : val -> list val -> M val :=
  match m with
  | At => p_at | Concat => p_concat | CopyWithin => p_copyWithin | Every => p_every | Fill => p_fill
  | Filter => p_filter | Find => p_find | FindIndex => p_findIndex | FindLast => p_findLast
  | FindLastIndex => p_findLastIndex | Flat => p_flat fuel | FlatMap => p_flatMap fuel
  | ForEach => p_forEach | Includes => p_includes | IndexOf => p_indexOf | JoinM => p_join
  | LastIndexOf => p_lastIndexOf | MapM => p_map | Pop => p_pop | Push => p_push
  | Reduce => p_reduce | ReduceRight => p_reduceRight | Reverse => p_reverse | Shift => p_shift
  | Slice => p_slice | Some_ => p_some | Splice => p_splice | ToLocaleStringM => p_toLocaleString
  | ToReversed => p_toReversed | ToSpliced => p_toSpliced | ToStringM => p_toString fallback
  | Unshift => p_unshift | With => p_with
  end.
End S.
