(** The methods of Array.prototype as ECMA-262 (2023) section 23.1.3 gives them,
    over the same worlds.  Indices are mathematical; a loop is a walk over the list
    of the indices it visits. *)
From Coq Require Import List ZArith Bool.
From Verif Require Import MethModel.
Import ListNotations.
Local Open Scope Z_scope.

(** a, a+1, ..., b-1 *)
Definition up (a b : Z) : list Z := map (fun i => a + Z.of_nat i) (seq 0 (Z.to_nat (b - a))).
(** b-1, ..., a+1, a *)
Definition down (a b : Z) : list Z := rev (up a b).

(** do [f] for every index *)
Fixpoint each {W S} (ks : list Z) (f : Z -> S -> M W S) (s : S) : M W S :=
  match ks with [] => ret s | k :: ks => s <- f k s ;; each ks f s end.
Definition each_ {W} (ks : list Z) (f : Z -> M W unit) : M W unit := each ks (fun k _ => f k) tt.
(** do [f] until it gives a result *)
Fixpoint first {W R} (ks : list Z) (f : Z -> M W (option R)) : M W (option R) :=
  match ks with [] => ret None | k :: ks => r <- f k ;; match r with None => first ks f | Some x => ret (Some x) end end.
Definition or_else {W R} (d : R) (m : M W (option R)) : M W R := r <- m ;; ret (match r with Some x => x | None => d end).

(** a relative index clamped to 0 .. len *)
Definition relative (x : xint) (len : Z) : Z :=
  match x with
  | NInf => 0
  | PInf => len
  | Fin z => if z <? 0 then Z.max 0 (len + z) else Z.min z len
  end.
(** a count clamped to 0 .. n *)
Definition count (x : xint) (n : Z) : Z :=
  match x with NInf => 0 | PInf => n | Fin z => Z.min (Z.max z 0) n end.
(** the items with their indices from [k] on *)
Fixpoint numbered (k : Z) (l : list val) : list (Z * val) :=
  match l with [] => [] | v :: l => (k, v) :: numbered (k + 1) l end.
Fixpoint do_all {W A} (l : list A) (f : A -> M W unit) : M W unit :=
  match l with [] => ret tt | x :: l => f x ;;; do_all l f end.

Definition limit : Z := 2 ^ 53 - 1.

Section S.
Variable w : world.
Notation M := (M (W w)).

Definition or_len (v : val) (len : Z) : M Z :=
  match v with Undef => ret len | _ => x <- to_int w v ;; ret (relative x len) end.
Definition need_callable (v : val) {A} (m : M A) : M A := if callable w v then m else throw TypeError.
Definition open (this : val) {A} (k : val -> Z -> M A) : M A := o <- to_object w this ;; len <- len_of w o ;; k o len.
Definition set_length (o : val) (n : Z) : M unit := set w o (Name Length) (Num n).

(** 10.4.2.2 ArraySpeciesCreate *)
Definition s_species (o : val) (len : Z) : M val :=
  b <- is_array w o ;;
  if b then
    c <- get w o (Name Constructor) ;;
    foreign <- (if is_ctor w c then foreign_array w c else ret false) ;;
    c <- (if foreign then ret Undef
          else match c with
               | Ref _ => x <- get w c (Name Species) ;; ret (match x with Null => Undef | _ => x end)
               | _ => ret c
               end) ;;
    match c with
    | Undef => new_array w len
    | _ => if is_ctor w c then construct w c [Num len] else throw TypeError
    end
  else new_array w len.

(** HasProperty and then Get *)
Definition peek (o : val) (k : Z) : M (option val) :=
  b <- has w o (Idx k) ;; if b then v <- get w o (Idx k) ;; ret (Some v) else ret None.
(** a property moves to another index, or is deleted there if it is missing *)
Definition shift_to (o : val) (from to : Z) : M unit :=
  v <- peek o from ;; match v with Some v => set w o (Idx to) v | None => del w o (Idx to) end.
(** copied to another array if it is there *)
Definition copy_to (o : val) (from : Z) (a : val) (to : Z) : M unit :=
  v <- peek o from ;; match v with Some v => create w a (Idx to) v | None => ret tt end.
Definition cb (args : list val) (v : val) (k : Z) (o : val) : M val :=
  call w (nth 0 args Undef) (nth 1 args Undef) [v; Num k; o].

(** 23.1.3.1 *)
Definition s_at (this : val) (args : list val) : M val :=
  open this (fun o len =>
    x <- to_int w (nth 0 args Undef) ;;
    match x with
    | Fin z => let k := if z <? 0 then len + z else z in
               if (0 <=? k) && (k <? len) then get w o (Idx k) else ret Undef
    | _ => ret Undef
    end).

(** 23.1.3.2 *)
Definition s_spreadable (e : val) : M bool :=
  match e with
  | Ref _ => v <- get w e (Name Spreadable) ;; match v with Undef => is_array w e | _ => ret (truthy w v) end
  | _ => ret false
  end.
Fixpoint s_concat_items (a : val) (n : Z) (items : list val) : M Z :=
  match items with
  | [] => ret n
  | e :: items =>
      sp <- s_spreadable e ;;
      n <- (if sp then
              len <- len_of w e ;;
              if limit <? n + len then throw TypeError
              else each_ (up 0 len) (fun k => copy_to e k a (n + k)) ;;; ret (n + len)
            else if limit <=? n then throw TypeError
            else create w a (Idx n) e ;;; ret (n + 1)) ;;
      s_concat_items a n items
  end.
Definition s_concat (this : val) (args : list val) : M val :=
  o <- to_object w this ;; a <- s_species o 0 ;;
  n <- s_concat_items a 0 (o :: args) ;; set_length a n ;;; ret a.

(** 23.1.3.4 *)
Definition s_copyWithin (this : val) (args : list val) : M val :=
  open this (fun o len =>
    t <- to_int w (nth 0 args Undef) ;; s <- to_int w (nth 1 args Undef) ;;
    final <- or_len (nth 2 args Undef) len ;;
    let to := relative t len in let from := relative s len in
    let n := Z.min (final - from) (len - to) in
    let js := if (from <? to) && (to <? from + n) then down 0 n else up 0 n in
    each_ js (fun j => shift_to o (from + j) (to + j)) ;;; ret o).

(** 23.1.3.6, 23.1.3.29 *)
Definition s_every (this : val) (args : list val) : M val :=
  open this (fun o len => need_callable (nth 0 args Undef) (
    or_else (Bool true) (first (up 0 len) (fun k =>
      v <- peek o k ;;
      match v with
      | Some v => t <- cb args v k o ;; ret (if truthy w t then None else Some (Bool false))
      | None => ret None
      end)))).
Definition s_some (this : val) (args : list val) : M val :=
  open this (fun o len => need_callable (nth 0 args Undef) (
    or_else (Bool false) (first (up 0 len) (fun k =>
      v <- peek o k ;;
      match v with
      | Some v => t <- cb args v k o ;; ret (if truthy w t then Some (Bool true) else None)
      | None => ret None
      end)))).
(** 23.1.3.7 *)
Definition s_fill (this : val) (args : list val) : M val :=
  open this (fun o len =>
    x <- to_int w (nth 1 args Undef) ;; final <- or_len (nth 2 args Undef) len ;;
    each_ (up (relative x len) final) (fun k => set w o (Idx k) (nth 0 args Undef)) ;;; ret o).
(** 23.1.3.8 *)
Definition s_filter (this : val) (args : list val) : M val :=
  open this (fun o len => need_callable (nth 0 args Undef) (
    a <- s_species o 0 ;;
    each (up 0 len) (fun k to =>
      v <- peek o k ;;
      match v with
      | Some v => t <- cb args v k o ;; if truthy w t then create w a (Idx to) v ;;; ret (to + 1) else ret to
      | None => ret to
      end) 0 ;;; ret a)).
(** 23.1.3.9 - 23.1.3.12 *)
Definition s_find_in (ks : Z -> list Z) (result : Z -> val -> val) (none : val) (this : val) (args : list val) : M val :=
  open this (fun o len => need_callable (nth 0 args Undef) (
    or_else none (first (ks len) (fun k =>
      v <- get w o (Idx k) ;; t <- cb args v k o ;;
      ret (if truthy w t then Some (result k v) else None))))).

(** 23.1.3.13 *)
Fixpoint s_flatten (fuel : nat) (target source : val) (slen start : Z) (depth : xint)
  (mapper : val -> Z -> M val) : M Z :=
  match fuel with
  | O => deep
  | Datatypes.S fuel =>
      each (up 0 slen) (fun k t =>
        v <- peek source k ;;
        match v with
        | None => ret t
        | Some v =>
            v <- mapper v k ;;
            let deeper := match depth with Fin d => 0 <? d | PInf => true | NInf => false end in
            b <- (if deeper then is_array w v else ret false) ;;
            if b then
              n <- len_of w v ;;
              s_flatten fuel target v n t (match depth with Fin d => Fin (d - 1) | x => x end) (fun v _ => ret v)
            else if limit <=? t then throw TypeError
            else create w target (Idx t) v ;;; ret (t + 1)
        end) start
  end.
Definition s_flat (fuel : nat) (this : val) (args : list val) : M val :=
  open this (fun o len =>
    d <- match nth 0 args Undef with Undef => ret (Fin 1) | v => to_int w v end ;;
    a <- s_species o 0 ;;
    s_flatten fuel a o len 0 d (fun v _ => ret v) ;;; ret a).
Definition s_flatMap (fuel : nat) (this : val) (args : list val) : M val :=
  open this (fun o len => need_callable (nth 0 args Undef) (
    a <- s_species o 0 ;;
    s_flatten fuel a o len 0 (Fin 1) (fun v k => cb args v k o) ;;; ret a)).

(** 23.1.3.15 *)
Definition s_forEach (this : val) (args : list val) : M val :=
  open this (fun o len => need_callable (nth 0 args Undef) (
    each_ (up 0 len) (fun k =>
      v <- peek o k ;; match v with Some v => cb args v k o ;;; ret tt | None => ret tt end) ;;;
    ret Undef)).

(** 23.1.3.16, 23.1.3.17, 23.1.3.20 *)
Definition s_includes (this : val) (args : list val) : M val :=
  open this (fun o len =>
    if len =? 0 then ret (Bool false)
    else
      x <- to_int w (nth 1 args Undef) ;;
      or_else (Bool false) (first (up (relative x len) len) (fun k =>
        v <- get w o (Idx k) ;; ret (if same_zero w v (nth 0 args Undef) then Some (Bool true) else None)))).
Definition s_match (o : val) (args : list val) (k : Z) : M (option val) :=
  v <- peek o k ;;
  ret (match v with Some v => if strict_eq w v (nth 0 args Undef) then Some (Num k) else None | None => None end).
Definition s_indexOf (this : val) (args : list val) : M val :=
  open this (fun o len =>
    if len =? 0 then ret (Num (-1))
    else
      x <- to_int w (nth 1 args Undef) ;;
      or_else (Num (-1)) (first (up (relative x len) len) (s_match o args))).
Definition s_lastIndexOf (this : val) (args : list val) : M val :=
  open this (fun o len =>
    if len =? 0 then ret (Num (-1))
    else
      x <- match args with _ :: v :: _ => to_int w v | _ => ret (Fin (len - 1)) end ;;
      let last := match x with
                  | NInf => -1 | PInf => len - 1
                  | Fin z => if z <? 0 then len + z else Z.min z (len - 1)
                  end in
      or_else (Num (-1)) (first (down 0 (last + 1)) (s_match o args))).

(** 23.1.3.18, 23.1.3.32 *)
Definition s_join_with (sep : list Z) (text : val -> M (list Z)) (o : val) (len : Z) : M val :=
  r <- each (up 0 len) (fun k r =>
    v <- get w o (Idx k) ;;
    s <- match v with Undef | Null => ret [] | _ => text v end ;;
    ret (r ++ (if k =? 0 then [] else sep) ++ s)) [] ;;
  ret (Str r).
Definition s_join (this : val) (args : list val) : M val :=
  open this (fun o len =>
    sep <- match nth 0 args Undef with Undef => ret [44] | v => to_str w v end ;;
    s_join_with sep (to_str w) o len).
Definition s_toLocaleString (this : val) (args : list val) : M val :=
  open this (fun o len => s_join_with [44] (fun v => x <- invoke w v ToLocaleString ;; to_str w x) o len).

(** 23.1.3.21 *)
Definition s_map (this : val) (args : list val) : M val :=
  open this (fun o len => need_callable (nth 0 args Undef) (
    a <- s_species o len ;;
    each_ (up 0 len) (fun k =>
      v <- peek o k ;;
      match v with Some v => m <- cb args v k o ;; create w a (Idx k) m | None => ret tt end) ;;;
    ret a)).
(** 23.1.3.22, 23.1.3.23 *)
Definition s_pop (this : val) (args : list val) : M val :=
  open this (fun o len =>
    if len =? 0 then set_length o 0 ;;; ret Undef
    else v <- get w o (Idx (len - 1)) ;; del w o (Idx (len - 1)) ;;; set_length o (len - 1) ;;; ret v).
Definition s_push (this : val) (args : list val) : M val :=
  open this (fun o len =>
    let n := len + Z.of_nat (length args) in
    if limit <? n then throw TypeError
    else do_all (numbered len args) (fun '(k, v) => set w o (Idx k) v) ;;; set_length o n ;;; ret (Num n)).

(** 23.1.3.24, 23.1.3.25: the order of the indices is the difference *)
Fixpoint s_fold (ks : list Z) (o : val) (f : val) (acc : option val) : M val :=
  match ks with
  | [] => match acc with Some v => ret v | None => throw TypeError end
  | k :: ks =>
      v <- peek o k ;;
      match v, acc with
      | None, _ => s_fold ks o f acc
      | Some v, None => s_fold ks o f (Some v)
      | Some v, Some a => a <- call w f Undef [a; v; Num k; o] ;; s_fold ks o f (Some a)
      end
  end.
Definition s_reduce_in (ks : Z -> list Z) (this : val) (args : list val) : M val :=
  open this (fun o len => need_callable (nth 0 args Undef) (
    s_fold (ks len) o (nth 0 args Undef) (match args with _ :: v :: _ => Some v | _ => None end))).

(** 23.1.3.26 *)
Definition s_reverse (this : val) (args : list val) : M val :=
  open this (fun o len =>
    each_ (up 0 (len / 2)) (fun lower =>
      let upper := len - 1 - lower in
      l <- peek o lower ;; u <- peek o upper ;;
      match l, u with
      | Some l, Some u => set w o (Idx lower) u ;;; set w o (Idx upper) l
      | None, Some u => set w o (Idx lower) u ;;; del w o (Idx upper)
      | Some l, None => del w o (Idx lower) ;;; set w o (Idx upper) l
      | None, None => ret tt
      end) ;;; ret o).
(** 23.1.3.27 *)
Definition s_shift (this : val) (args : list val) : M val :=
  open this (fun o len =>
    if len =? 0 then set_length o 0 ;;; ret Undef
    else
      v <- get w o (Idx 0) ;;
      each_ (up 1 len) (fun k => shift_to o k (k - 1)) ;;;
      del w o (Idx (len - 1)) ;;; set_length o (len - 1) ;;; ret v).
(** 23.1.3.28 *)
Definition s_slice (this : val) (args : list val) : M val :=
  open this (fun o len =>
    x <- to_int w (nth 0 args Undef) ;; final <- or_len (nth 1 args Undef) len ;;
    let n := Z.max (final - relative x len) 0 in
    a <- s_species o n ;;
    each_ (up 0 n) (fun j => copy_to o (relative x len + j) a j) ;;; set_length a n ;;; ret a).

(** 23.1.3.31 *)
Definition s_delete_count (args : list val) (len start : Z) : M Z :=
  match args with
  | [] => ret 0
  | [_] => ret (len - start)
  | _ :: v :: _ => x <- to_int w v ;; ret (count x (len - start))
  end.
Definition items_of (args : list val) : list val := skipn 2 args.
Definition s_splice (this : val) (args : list val) : M val :=
  open this (fun o len =>
    x <- to_int w (nth 0 args Undef) ;;
    let start := relative x len in
    dc <- s_delete_count args len start ;;
    let ic := Z.of_nat (length (items_of args)) in
    if limit <? len + ic - dc then throw TypeError
    else
      a <- s_species o dc ;;
      each_ (up 0 dc) (fun k => copy_to o (start + k) a k) ;;; set_length a dc ;;;
      (if ic <? dc then
         each_ (up start (len - dc)) (fun k => shift_to o (k + dc) (k + ic)) ;;;
         each_ (down (len - dc + ic) len) (fun k => del w o (Idx k))
       else if dc <? ic then
         each_ (down start (len - dc)) (fun k => shift_to o (k + dc) (k + ic))
       else ret tt) ;;;
      do_all (numbered start (items_of args)) (fun '(k, v) => set w o (Idx k) v) ;;;
      set_length o (len - dc + ic) ;;; ret a).

(** 23.1.3.33, 23.1.3.35 *)
Definition s_toReversed (this : val) (args : list val) : M val :=
  open this (fun o len =>
    a <- new_array w len ;;
    each_ (up 0 len) (fun k => v <- get w o (Idx (len - 1 - k)) ;; create w a (Idx k) v) ;;; ret a).
Definition s_toSpliced (this : val) (args : list val) : M val :=
  open this (fun o len =>
    x <- to_int w (nth 0 args Undef) ;;
    let start := relative x len in
    skip <- s_delete_count args len start ;;
    let ic := Z.of_nat (length (items_of args)) in
    let n := len + ic - skip in
    if limit <? n then throw TypeError
    else
      a <- new_array w n ;;
      each_ (up 0 start) (fun k => v <- get w o (Idx k) ;; create w a (Idx k) v) ;;;
      do_all (numbered start (items_of args)) (fun '(k, v) => create w a (Idx k) v) ;;;
      each_ (up (start + skip) len) (fun k => v <- get w o (Idx k) ;; create w a (Idx (k - skip + ic)) v) ;;;
      ret a).

(** 23.1.3.36 *)
Definition s_toString (fallback : val) (this : val) (args : list val) : M val :=
  a <- to_object w this ;; f <- get w a (Name Join) ;;
  if callable w f then call w f a [] else call w fallback a [].
(** 23.1.3.37 *)
Definition s_unshift (this : val) (args : list val) : M val :=
  open this (fun o len =>
    let n := Z.of_nat (length args) in
    (if 0 <? n then
       if limit <? len + n then throw TypeError
       else
         each_ (down 0 len) (fun k => shift_to o k (k + n)) ;;;
         do_all (numbered 0 args) (fun '(k, v) => set w o (Idx k) v)
     else ret tt) ;;;
    set_length o (len + n) ;;; ret (Num (len + n))).
(** 23.1.3.39 *)
Definition s_with (this : val) (args : list val) : M val :=
  open this (fun o len =>
    x <- to_int w (nth 0 args Undef) ;;
    match x with
    | Fin z =>
        let i := if z <? 0 then len + z else z in
        if (0 <=? i) && (i <? len) then
          a <- new_array w len ;;
          each_ (up 0 len) (fun k =>
            v <- (if k =? i then ret (nth 1 args Undef) else get w o (Idx k)) ;; create w a (Idx k) v) ;;;
          ret a
        else throw RangeError
    | _ => throw RangeError
    end).

Definition spec (fuel : nat) (fallback : val) (m : meth) : val -> list val -> M val :=
  match m with
  | At => s_at | Concat => s_concat | CopyWithin => s_copyWithin | Every => s_every | Fill => s_fill
  | Filter => s_filter
  | Find => s_find_in (up 0) (fun _ v => v) Undef
  | FindIndex => s_find_in (up 0) (fun k _ => Num k) (Num (-1))
  | FindLast => s_find_in (down 0) (fun _ v => v) Undef
  | FindLastIndex => s_find_in (down 0) (fun k _ => Num k) (Num (-1))
  | Flat => s_flat fuel | FlatMap => s_flatMap fuel | ForEach => s_forEach
  | Includes => s_includes | IndexOf => s_indexOf | JoinM => s_join | LastIndexOf => s_lastIndexOf
  | MapM => s_map | Pop => s_pop | Push => s_push
  | Reduce => s_reduce_in (up 0) | ReduceRight => s_reduce_in (down 0)
  | Reverse => s_reverse | Shift => s_shift | Slice => s_slice | Some_ => s_some
  | Splice => s_splice | ToLocaleStringM => s_toLocaleString
  | ToReversed => s_toReversed | ToSpliced => s_toSpliced | ToStringM => s_toString fallback
  | Unshift => s_unshift | With => s_with
  end.
End S.

(** *** What the engine guarantees of its operations *)
(** LengthOfArrayLike gives an integer from 0 to 2^53-1 *)
Definition lengths_fit (w : world) : Prop :=
  forall o s s' n, len_of w o s = (s', Ok n) -> 0 <= n <= limit.
(** IsArray throws for a revoked proxy only, whose every other operation throws too *)
Definition revoked_throws (w : world) : Prop :=
  forall o s s' e, is_array w o s = (s', Throw e) -> get w o (Name Constructor) s' = (s', Throw e).
(** relative indices that a conversion to int64_t does not overflow *)
Definition indices_fit (w : world) : Prop :=
  forall v s s' z, to_int w v s = (s', Ok (Fin z)) -> - 2 ^ 63 <= z < 2 ^ 63.
