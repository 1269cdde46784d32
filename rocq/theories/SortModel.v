(** Model of the merge sort used by Array.prototype.sort and
    TypedArray.prototype.sort.

    Source: /repo/src/lib/rjs_sort.c lines 28-123 and
    /repo/src/lib/rjs_array_object_inc.c lines 2261-2400.

    The C code works on a byte array [base] of [num] items; here the array
    is a [list A] and pointers are item indices.  Reads use [nth_error], so
    an out-of-range access is the distinct outcome [SOob].  The scratch
    buffer [tmp] is represented by the list of items written so far. *)
From Coq Require Import List Arith Bool Lia.
Import ListNotations.

(** /repo/include/ratjs/rjs_value.h: RJS_CompareResult
    (RJS_ERR, the exception outcome, is [None] below). *)
Inductive cmpres := CLess | CEqual | CGreater | CUndefined.

(** /repo/src/lib/rjs_sort.c:47 — [cr != RJS_COMPARE_GREATER]. *)
Definition is_greater (c : cmpres) : bool :=
  match c with CGreater => true | _ => false end.

(** Outcome of a sorting routine: the array after a normal return, the
    array after the comparator threw, an out-of-bounds access, or
    exhausted recursion fuel (proved impossible). *)
Inductive sres (A : Type) :=
| SOk (base : list A)
| SThrow (base : list A)
| SOob
| SFuel.
Arguments SOk {A} _.
Arguments SThrow {A} _.
Arguments SOob {A}.
Arguments SFuel {A}.

Section Sort.
  Variable A : Type.
  (** State of the outside world seen by the user comparator; every call
      may read and change it, so the comparator may answer inconsistently
      and may throw at any call. *)
  Variable W : Type.
  (** The comparison callback [func(l, r, arg)]: [None] is RJS_ERR. *)
  Variable func : W -> A -> A -> option cmpres * W.

  (** Result of the comparison loop of [merge] (rjs_sort.c:43-56). *)
  Inductive mres :=
  | MDone (l r : nat) (tmp : list A) (w : W)
  | MThrow (w : W)
  | MOob
  | MFuel.

  (** rjs_sort.c:43-56 — [while ((l <= m) && (r <= e))]. *)
  Fixpoint merge_loop (fuel : nat) (w : W) (base : list A)
           (m e l r : nat) (tmp : list A) : mres :=
    if (l <=? m) && (r <=? e) then
      match fuel with
      | O => MFuel
      | S fuel' =>
        match nth_error base l, nth_error base r with
        | Some x, Some y =>
          match func w x y with
          | (None, w') => MThrow w'
          | (Some cr, w') =>
            if negb (is_greater cr)
            then merge_loop fuel' w' base m e (S l) r (tmp ++ [x])
            else merge_loop fuel' w' base m e l (S r) (tmp ++ [y])
          end
        | _, _ => MOob
        end
      end
    else MDone l r tmp w.

  (** memcpy of items [from..to] (inclusive) out of [base]
      (rjs_sort.c:58-68); [None] if the range leaves the array. *)
  Definition copy_range (base : list A) (from to : nat) : option (list A) :=
    if to <? length base
    then Some (firstn (S to - from) (skipn from base)) else None.

  (** memcpy of [src] over [base] at item [at_] (rjs_sort.c:70-71). *)
  Definition write_range (base : list A) (at_ : nat) (src : list A)
    : option (list A) :=
    if at_ + length src <=? length base
    then Some (firstn at_ base ++ src ++ skipn (at_ + length src) base)
    else None.

  (** rjs_sort.c:29-73 — merge the sorted runs [min..mid], [mid+1..max]. *)
  Definition merge (w : W) (base : list A) (min mid max : nat)
    : sres A * W :=
    match merge_loop (S max - min) w base mid max min (S mid) [] with
    | MThrow w' => (SThrow base, w')
    | MOob => (SOob, w)
    | MFuel => (SFuel, w)
    | MDone l r tmp w' =>
      let t1 := if l <=? mid then copy_range base l mid else Some [] in
      let t2 := if r <=? max then copy_range base r max else Some [] in
      match t1, t2 with
      | Some a, Some b =>
        let tmp' := tmp ++ a ++ b in
        (* line 71 copies (max - min + 1) items back from tmp *)
        if length tmp' =? S max - min then
          match write_range base min tmp' with
          | Some base' => (SOk base', w')
          | None => (SOob, w')
          end
        else (SOob, w')
      | _, _ => (SOob, w')
      end
    end.

  (** rjs_sort.c:76-95 — recursive sort of [min..max] (inclusive).  Fuel
      bounds the recursion depth. *)
  Fixpoint sort (fuel : nat) (w : W) (base : list A) (min max : nat)
    : sres A * W :=
    if max <=? min then (SOk base, w)
    else
      match fuel with
      | O => (SFuel, w)
      | S fuel' =>
        let mid := (min + max) / 2 in
        match sort fuel' w base min mid with
        | (SOk base1, w1) =>
          match sort fuel' w1 base1 (S mid) max with
          | (SOk base2, w2) => merge w2 base2 min mid max
          | r => r
          end
        | r => r
        end
      end.

  (** rjs_sort.c:107-123 — entry point. *)
  Definition rjs_sort (w : W) (base : list A) : sres A * W :=
    let num := length base in
    if num <? 2 then (SOk base, w)
    else sort num w base 0 (num - 1).
End Sort.
Arguments MDone {A W} _ _ _ _.
Arguments MThrow {A W} _.
Arguments MOob {A W}.
Arguments MFuel {A W}.

(** ** Array.prototype.sort (rjs_array_object_inc.c:2329-2400)

    The array is a list of slots; [None] is a hole.  A slot holds
    [Some None] for the value undefined and [Some (Some v)] for any other
    value.  Reading and writing elements is assumed not to run user code
    (plain array, no accessors), which is a simplification. *)
Section ArraySort.
  Variable V : Type.
  Variable W : Type.
  (** User comparator (or the default string comparison), only ever called
      on defined values. *)
  Variable user : W -> V -> V -> option cmpres * W.

  (** rjs_array_object_inc.c:2268-2326 — array_item_compare_fn: undefined
      sorts last and never reaches the user function. *)
  Definition array_item_compare_fn (w : W) (a b : option V)
    : option cmpres * W :=
    match a, b with
    | None, None => (Some CEqual, w)
    | None, Some _ => (Some CGreater, w)
    | Some _, None => (Some CLess, w)
    | Some x, Some y => user w x y
    end.

  (** rjs_array_object_inc.c:2361-2380 — the loop collecting the present
      elements. *)
  Fixpoint collect (slots : list (option (option V))) : list (option V) :=
    match slots with
    | [] => []
    | None :: t => collect t
    | Some v :: t => v :: collect t
    end.

  (** Outcome of the whole method. *)
  Inductive asres :=
  | ASOk (slots : list (option (option V)))
  | ASThrow (slots : list (option (option V)))
  | ASBad.

  (** rjs_array_object_inc.c:2329-2400. The buffer is pre-filled with
      undefined up to [len] (2353-2354), all [len] items are sorted
      (2389), the first [nitem] are written back (2392-2395) and the
      remaining indices are deleted (2397-2400). *)
  Definition array_sort (w : W) (slots : list (option (option V)))
    : asres * W :=
    let len := length slots in
    let vals := collect slots in
    let nitem := length vals in
    let vb := vals ++ repeat None (len - nitem) in
    match rjs_sort (option V) W array_item_compare_fn w vb with
    | (SOk vb', w') =>
      (ASOk (map Some (firstn nitem vb') ++ repeat None (len - nitem)), w')
    | (SThrow _, w') => (ASThrow slots, w')
    | (_, w') => (ASBad, w')
    end.
End ArraySort.
Arguments ASOk {V} _.
Arguments ASThrow {V} _.
Arguments ASBad {V}.

(** ** Default comparison of typed-array elements

    A double is a NaN or a value with a sign bit; the C code only uses [<],
    [>] and [signbit], so the value is represented by its rank.
    rjs_typed_array_object_inc.c:1726-1748 (typed_array_element_cmp, the
    non-BigInt branch without user function). *)
From Coq Require Import ZArith.
Definition typed_array_element_cmp (is_nan1 : bool) (v1 : Z) (neg1 : bool)
           (is_nan2 : bool) (v2 : Z) (neg2 : bool) : cmpres :=
  if is_nan1 && is_nan2 then CEqual
  else if is_nan1 then CGreater
  else if is_nan2 then CLess
  else if (v1 <? v2)%Z then CLess
  else if (v2 <? v1)%Z then CGreater
  else if neg1 && negb neg2 then CLess
  else if negb neg1 && neg2 then CGreater
  else CEqual.
