(** Model of the internal big integer implementation.

    Source: /repo/src/lib/rjs_big_int_internal_opt.c.

    [RJS_BI] is a limb buffer [n] of uint32_t and a signed [size].  The model
    keeps the sign and the list of the first |size| limbs, least significant
    first.  Limbs past |size| that are still read by the code (after [bi_end]
    lowered the size, in [bi_bit_op], [bi_shift] and [bi_div]) are the zeros that
    [bi_end] stripped; the model reads them as 0 through [nth] and pads with 0 in
    [set_item].  Memory failure is not modelled, int sizes do not overflow.
    [x & 0xffffffff] and [x >> 32] are written [x mod B] and [x / B]. *)
From Coq Require Import ZArith List Bool.
Import ListNotations.
Open Scope Z_scope.

Definition B : Z := 4294967296.

Record bi := mkbi { neg : bool; mag : list Z }.

(** [bi->size = ...]: a size of 0 has no sign. *)
Definition signed (s : bool) (m : list Z) : bi :=
  mkbi (match m with [] => false | _ => s end) m.
(** [dst->size = - dst->size] *)
Definition negate (b : bi) : bi := signed (negb (neg b)) (mag b).
(** lines 60-69 *)
Definition positive (b : bi) : Z :=
  match mag b with [] => 0 | _ => if neg b then -1 else 1 end.
(** lines 72-79 *)
Definition is_1 (b : bi) : bool :=
  match mag b with [x] => x =? 1 | _ => false end.
Definition bi0 : bi := mkbi false [].

(** lines 108-133 — [bi_set_item] on the limbs *)
Fixpoint set_item (l : list Z) (idx : nat) (v : Z) : list Z :=
  match idx, l with
  | O, [] => [v]
  | O, _ :: t => v :: t
  | S i, [] => 0 :: set_item [] i v
  | S i, x :: t => x :: set_item t i v
  end.

(** lines 135-163 — [bi_end] *)
Fixpoint strip (l : list Z) : list Z :=
  match l with
  | [] => []
  | x :: t => match strip t with
              | [] => if x =? 0 then [] else [x]
              | t' => x :: t'
              end
  end.

(** Comparison results. *)
Inductive cmp := CEqual | CLess | CGreater | CUndefined.

(** lines 244-271; the loop runs over indices size-1 .. 0 *)
Fixpoint cmp_loop (k : nat) (l1 l2 : list Z) : cmp :=
  match k with
  | O => CEqual
  | S i => if nth i l2 0 <? nth i l1 0 then CGreater
           else if nth i l1 0 <? nth i l2 0 then CLess
           else cmp_loop i l1 l2
  end.
Definition compare_abs (l1 l2 : list Z) : cmp :=
  if (length l1 <? length l2)%nat then CLess
  else if (length l2 <? length l1)%nat then CGreater
  else cmp_loop (length l1) l1 l2.

(** lines 274-306 *)
Definition compare (b1 b2 : bi) : cmp :=
  let p1 := positive b1 in
  let p2 := positive b2 in
  if (p1 <? 0) && (0 <=? p2) then CLess
  else if (p1 =? 0) && (p2 <? 0) then CGreater
  else if (p1 =? 0) && (p2 =? 0) then CEqual
  else if p1 =? 0 then CLess
  else if (0 <? p1) && (p2 <=? 0) then CGreater
  else
    match compare_abs (mag b1) (mag b2) with
    | CLess => if p1 <? 0 then CGreater else CLess
    | CGreater => if p1 <? 0 then CLess else CGreater
    | r => r
    end.

(** lines 309-348 — [bi_mul_int] *)
Fixpoint mul_loop (l : list Z) (n left : Z) : list Z :=
  match l with
  | [] => if left =? 0 then [] else [left]
  | x :: t => let res := n * x + left in (res mod B) :: mul_loop t n (res / B)
  end.
Definition mul_int (src : bi) (n : Z) (shift : nat) : bi :=
  if n =? 0 then bi0
  else if (n =? 1) && (Nat.eqb shift 0) then src
  else signed false (repeat 0 shift ++ mul_loop (mag src) n 0).

(** lines 351-379 — [bi_self_add_int] *)
Fixpoint self_add_int (l : list Z) (left : Z) : list Z :=
  match l with
  | [] => if left =? 0 then [] else [left]
  | x :: t => let res := x + left in
              if res / B =? 0 then (res mod B) :: t
              else (res mod B) :: self_add_int t (res / B)
  end.

(** lines 382-412 — [bi_add_int] *)
Fixpoint add_int (l : list Z) (left : Z) : list Z :=
  match l with
  | [] => if left =? 0 then [] else [left]
  | x :: t => let sum := x + left in (sum mod B) :: add_int t (sum / B)
  end.

(** lines 415-448 — [bi_sub_int] *)
Fixpoint sub_int_loop (l : list Z) (left : Z) : list Z :=
  match l with
  | [] => []
  | x :: t => let sum := x - left in
              if sum <? 0 then (B + sum) :: sub_int_loop t 1
              else sum :: sub_int_loop t 0
  end.
Definition sub_int (l : list Z) (n : Z) : list Z := strip (sub_int_loop l n).

(** lines 451-483 — [bi_div_int]; the loop starts at the most significant
    limb, [n <> 1] at every call *)
Fixpoint div_int_loop (l : list Z) (n : Z) : list Z * Z :=
  match l with
  | [] => ([], 0)
  | x :: t => let '(q, rm) := div_int_loop t n in
              let sum := x + rm * B in
              (sum / n :: q, sum mod n)
  end.
Definition div_int (l : list Z) (n : Z) : list Z * Z :=
  let '(q, r) := div_int_loop l n in (strip q, r).

(** lines 182-241 — [bi_set_number] of a finite integral number [i]; [m], [e]
    are the significand and exponent fields of the double. *)
Definition dbl_exp (a : Z) : Z := Z.log2 a.
Definition dbl_man (a : Z) : Z :=
  if dbl_exp a <=? 52 then a * 2 ^ (52 - dbl_exp a) else a / 2 ^ (dbl_exp a - 52).
(** [while (e >= 84)] *)
Fixpoint sn_zeros (fuel : nat) (e : Z) : list Z * Z :=
  match fuel with
  | O => ([], e)
  | S f => if 84 <=? e then let '(l, e') := sn_zeros f (e - 32) in (0 :: l, e') else ([], e)
  end.
(** [while (e >= 0)] *)
Fixpoint sn_limbs (fuel : nat) (m e : Z) : list Z :=
  match fuel with
  | O => []
  | S f => if 0 <=? e then (m mod B) :: sn_limbs f (m / B) (e - 32) else []
  end.
Definition set_number (i : Z) : bi :=
  if i =? 0 then bi0
  else
    let m := dbl_man (Z.abs i) in
    let '(zs, e) := sn_zeros 40 (dbl_exp (Z.abs i)) in
    let l :=
      if 52 <? e then
        ((m * 2 ^ (e - 52)) mod B) :: sn_limbs 4 (m / 2 ^ (32 - (e - 52))) (e - 32)
      else if e <? 52 then sn_limbs 4 (m / 2 ^ (52 - e)) e
      else sn_limbs 4 m e in
    signed (i <? 0) (strip (zs ++ l)).

(** lines 556-605 — [rjs_big_int_from_chars]; the characters are given by their
    digit values *)
Fixpoint from_digits_loop (obi : list Z) (ds : list Z) (base : Z) : list Z :=
  match ds with
  | [] => obi
  | d :: t => from_digits_loop (self_add_int (mag (mul_int (mkbi false obi) base 0)) d) t base
  end.
Definition from_digits (ds : list Z) (base : Z) : bi := signed false (from_digits_loop [] ds base).
(** include/rjs_uchar.h:106-117 — rjs_hex_char_to_number, [None]: assertion *)
Definition hex_char (c : Z) : option Z :=
  if (97 <=? c) && (c <=? 102) then Some (c - 97 + 10)
  else if (65 <=? c) && (c <=? 70) then Some (c - 65 + 10)
  else if (48 <=? c) && (c <=? 57) then Some (c - 48)
  else None.

(** lines 657-674 — rjs_big_int_from_int; 685-707 — rjs_big_int_from_int64
    ([RJS_ABS] is undefined at the minimum); 718-735 — rjs_big_int_from_uint64 *)
Definition from_int (i : Z) : bi := signed (i <? 0) (strip [Z.abs i]).
Definition from_int64 (i : Z) : option bi :=
  if i =? - 2 ^ 63 then None
  else Some (signed (i <? 0) (strip [Z.abs i mod B; Z.abs i / B])).
Definition from_uint64 (i : Z) : bi := signed false (strip [i mod B; i / B]).

(** lines 741-765 and 774-798 — rjs_big_int_to_int64, rjs_big_int_to_uint64;
    [None]: the negation of INT64_MIN overflows *)
Definition wrap64 (z : Z) : Z := (z + 2 ^ 63) mod 2 ^ 64 - 2 ^ 63.
Definition to_int64 (b : bi) : option Z :=
  if positive b =? 0 then Some 0
  else
    let i := wrap64 (nth 0 (mag b) 0 + (if (1 <? length (mag b))%nat then nth 1 (mag b) 0 * B else 0)) in
    if positive b <? 0 then (if i =? - 2 ^ 63 then None else Some (- i)) else Some i.
Definition to_uint64 (b : bi) : option Z :=
  match to_int64 b with None => None | Some i => Some (i mod 2 ^ 64) end.

(** lines 808-826 — rjs_big_int_same_value *)
Fixpoint same_limbs (l1 l2 : list Z) : bool :=
  match l1, l2 with
  | [], [] => true
  | x :: t1, y :: t2 => (x =? y) && same_limbs t1 t2
  | _, _ => false
  end.
Definition same_value (b1 b2 : bi) : bool :=
  (positive b1 =? positive b2) && same_limbs (mag b1) (mag b2).

(** lines 852-920 — rjs_big_int_to_string *)
Definition digit_char (r : Z) : Z := if r <? 10 then r + 48 else r - 10 + 97.
Fixpoint to_string_loop (fuel : nat) (l : list Z) (radix : Z) (cb : list Z) : option (list Z) :=
  match l with
  | [] => Some cb
  | _ => match fuel with
         | O => None
         | S f => let '(q, r) := div_int l radix in
                  to_string_loop f q radix (digit_char r :: cb)
         end
  end.
Definition to_string (b : bi) (radix : Z) : option (list Z) :=
  if positive b =? 0 then Some [48]
  else match to_string_loop (32 * length (mag b)) (mag b) radix [] with
       | None => None
       | Some cs => Some (if positive b <? 0 then 45 :: cs else cs)
       end.

(** lines 931-946 *)
Definition unary_minus (b : bi) : bi := if positive b =? 0 then bi0 else negate b.
(** lines 956-978 *)
Definition bitwise_not (b : bi) : bi :=
  if 0 <=? positive b then signed true (add_int (mag b) 1)
  else signed false (sub_int (mag b) 1).
(** lines 988-1010 *)
Definition inc (b : bi) : bi :=
  if 0 <=? positive b then signed false (add_int (mag b) 1)
  else signed true (sub_int (mag b) 1).
(** lines 1020-1046 *)
Definition dec (b : bi) : bi :=
  if 0 <? positive b then signed false (sub_int (mag b) 1)
  else if positive b =? 0 then signed true [1]
  else signed true (add_int (mag b) 1).

(** lines 1049-1089 [bi_self_add] and 1092-1134 [bi_add] *)
Fixpoint add_loop (l1 l2 : list Z) (left : Z) : list Z :=
  match l1, l2 with
  | [], [] => if left =? 0 then [] else [left]
  | x :: t1, [] => let sum := x + 0 + left in (sum mod B) :: add_loop t1 [] (sum / B)
  | [], y :: t2 =>
    (fix add_right (l2 : list Z) (left : Z) : list Z :=
       match l2 with
       | [] => if left =? 0 then [] else [left]
       | y :: t2 => let sum := 0 + y + left in (sum mod B) :: add_right t2 (sum / B)
       end) (y :: t2) left
  | x :: t1, y :: t2 => let sum := x + y + left in (sum mod B) :: add_loop t1 t2 (sum / B)
  end.

(** lines 1187-1233 — [bi_sub_greater]; the borrow [left] is only ever set *)
Fixpoint sub_right (l2 : list Z) (left : Z) : list Z :=
  match l2 with
  | [] => []
  | y :: t2 => let res := 0 - y - left in
               if res <? 0 then (res + B) :: sub_right t2 1 else res :: sub_right t2 left
  end.
Fixpoint sub_loop (l1 l2 : list Z) (left : Z) : list Z :=
  match l1, l2 with
  | [], l2 => sub_right l2 left
  | x :: t1, [] => let res := x - 0 - left in
                   if res <? 0 then (res + B) :: sub_loop t1 [] 1 else res :: sub_loop t1 [] left
  | x :: t1, y :: t2 => let res := x - y - left in
                   if res <? 0 then (res + B) :: sub_loop t1 t2 1 else res :: sub_loop t1 t2 left
  end.
Definition sub_greater (l1 l2 : list Z) : list Z := strip (sub_loop l1 l2 0).

(** lines 1137-1184 — [bi_self_sub_greater]: also stops when there is no borrow
    and the second operand is exhausted *)
Fixpoint self_sub_loop (l1 l2 : list Z) (left : Z) : list Z :=
  match l1, l2 with
  | [], l2 => sub_right l2 left
  | x :: t1, [] => let res := x - 0 - left in
                   if res <? 0 then (res + B) :: self_sub_loop t1 [] 1
                   else if left =? 0 then res :: t1
                   else res :: self_sub_loop t1 [] left
  | x :: t1, y :: t2 => let res := x - y - left in
                   if res <? 0 then (res + B) :: self_sub_loop t1 t2 1 else res :: self_sub_loop t1 t2 left
  end.
Definition self_sub_greater (l1 l2 : list Z) : list Z := strip (self_sub_loop l1 l2 0).

(** lines 1236-1266 — [bi_sub] of the magnitudes *)
Definition sub (l1 l2 : list Z) : bi :=
  match compare_abs l1 l2 with
  | CEqual => bi0
  | CLess => signed true (sub_greater l2 l1)
  | _ => signed false (sub_greater l1 l2)
  end.

(** lines 1276-1308 *)
Definition big_add (b1 b2 : bi) : bi :=
  let n1 := positive b1 <? 0 in
  let n2 := positive b2 <? 0 in
  let dst := if Bool.eqb n1 n2 then signed false (add_loop (mag b1) (mag b2) 0)
             else sub (mag b1) (mag b2) in
  if n1 then negate dst else dst.
(** lines 1318-1347 *)
Definition big_subtract (b1 b2 : bi) : bi :=
  let n1 := positive b1 <? 0 in
  let n2 := positive b2 <? 0 in
  let dst := if Bool.eqb n1 n2 then sub (mag b1) (mag b2)
             else signed false (add_loop (mag b1) (mag b2) 0) in
  if n1 then negate dst else dst.

(** lines 1350-1418 — [bi_mul]; [sum] keeps the sign [bi_dup] gave it, since
    [bi_set_item] preserves the sign of a non-zero size *)
Definition self_add (b1 b2 : bi) : bi :=
  signed (neg b1) (add_loop (mag b1) (mag b2) 0).
Fixpoint mul_outer (src1 : bi) (l2 : list Z) (i : nat) (sum : bi) : bi :=
  match l2 with
  | [] => sum
  | n :: t => let mres := mul_int src1 n i in
              mul_outer src1 t (S i) (match i with O => mres | _ => self_add sum mres end)
  end.
Definition mul (b1 b2 : bi) : bi :=
  let p1 := positive b1 in
  let p2 := positive b2 in
  if (p1 =? 0) || (p2 =? 0) then bi0
  else if is_1 b1 then (if p1 <? 0 then negate b2 else b2)
  else if is_1 b2 then (if p2 <? 0 then negate b1 else b1)
  else let sum := mul_outer b1 (mag b2) 0 bi0 in
       if p1 =? p2 then sum else negate sum.

(** lines 1440-1567 — [bi_div] *)
Inductive dres := DThrow | DLoop | DRet (q r : bi).

(** [n = v1 / v2] with the compare of the last round; 0 stops the loop *)
Definition div_digit (left cmpl : list Z) (size : nat) (last : bool) : Z :=
  let v2 := nth (size - 1) cmpl 0 + (if Nat.eqb (size - 1) 0 then 0 else 1) in
  let v1 := nth (size - 1) left 0 +
            (if (size <? length left)%nat then nth size left 0 * B else 0) in
  let n := v1 / v2 in
  let n := if n =? 0 then
             if last then
               match compare (signed false left) (signed false cmpl) with
               | CEqual | CGreater => 1
               | _ => 0
               end
             else 0
           else n in
  if B - 1 <? n then B - 1 else n.
(** [while (1)]; [None] when the fuel runs out *)
Fixpoint div_inner (fuel : nat) (left cmpl qr : list Z) (size shift : nat) (last : bool)
  : option (list Z * list Z) :=
  match fuel with
  | O => None
  | S f =>
    let n := div_digit left cmpl size last in
    if n =? 0 then Some (left, qr)
    else
      let qr' := add_loop qr (repeat 0 shift ++ [n]) 0 in
      let tmp := mag (mul_int (signed false cmpl) n 0) in
      div_inner f (self_sub_greater left tmp) cmpl qr' size shift last
  end.
(** [for (size = size1; size >= size2; size --)], [shift = size - size2] *)
Fixpoint div_outer (shift : nat) (left op2 qr : list Z) (fuel : nat) : option (list Z * list Z) :=
  let size := (shift + length op2)%nat in
  match div_inner fuel left (repeat 0 shift ++ op2) qr size shift (Nat.eqb shift 0) with
  | None => None
  | Some (left', qr') =>
    match shift with
    | O => Some (left', qr')
    | S s => div_outer s left' op2 qr' fuel
    end
  end.
Definition div_fuel : nat := 100.
Definition div (b1 b2 : bi) : dres :=
  let p1 := positive b1 in
  let p2 := positive b2 in
  if p2 =? 0 then DThrow
  else if p1 =? 0 then DRet bi0 bi0
  else if is_1 b2 then DRet (if p2 <? 0 then negate b1 else b1) bi0
  else
    let r := if (length (mag b1) <? length (mag b2))%nat then Some (mag b1, [])
             else div_outer (length (mag b1) - length (mag b2)) (mag b1) (mag b2) [] div_fuel in
    match r with
    | None => DLoop
    | Some (lft, qr) =>
      DRet (if p1 =? p2 then signed false qr else signed true qr)
           (if p1 <? 0 then signed true lft else signed false lft)
    end.

(** lines 1653-1679 [bi_map_get]: the shift-th repeated square (the table only
    caches it); 1682-1724 [bi_exp] *)
Fixpoint square (b : bi) (shift : nat) : bi :=
  match shift with O => b | S s => let x := square b s in mul x x end.
(** the greatest [shift] with [2^shift <= e] *)
Fixpoint exp_shift (fuel : nat) (v e : Z) (shift : nat) : Z * nat :=
  match fuel with
  | O => (v, shift)
  | S f => if e <? v * 2 then (v, shift)
           else if v * 2 =? e then (v * 2, S shift)
           else exp_shift f (v * 2) e (S shift)
  end.
Fixpoint exp_loop (fuel : nat) (base : bi) (e : Z) (res : bi) : option bi :=
  match fuel with
  | O => None
  | S f => let '(v, shift) := exp_shift 64 1 e 0 in
           let res' := mul (square base shift) res in
           if v <? e then exp_loop f base (e - v) res' else Some res'
  end.
Inductive eres := EThrow | ELoop | ERet (b : bi).
(** lines 1734-1800 *)
Definition exponentiate (b1 b2 : bi) : eres :=
  let p1 := positive b1 in
  let p2 := positive b2 in
  if p2 <? 0 then EThrow
  else if p2 =? 0 then ERet (signed false [1])
  else if p1 =? 0 then ERet bi0
  else if (1 <? length (mag b2))%nat then EThrow
  else
    let e := nth 0 (mag b2) 0 in
    let r := if is_1 b1 then Some (signed false [1])
             else if e =? 1 then Some b1
             else exp_loop 64 (signed false (mag b1)) e (signed false [1]) in
    match r with
    | None => ELoop
    | Some d =>
      (* [e == 1] keeps the sign of [src1], which is then negated again *)
      ERet (if (p1 <? 0) && Z.odd e then negate d else d)
    end.

(** lines 1803-1820 — [bi_complement] of an empty destination *)
Definition complement_raw (l : list Z) : list Z := self_add_int (map (fun x => B - 1 - x) l) 1.
Definition complement (l : list Z) : list Z := strip (complement_raw l).

(** lines 1823-1936 — [bi_shift] *)
(** right shift: limbs i = 0 .. size-1 of [s], j = i + off *)
Fixpoint shr_loop (k : nat) (j size1 : nat) (s : list Z) (fill : Z) (bits : Z) : list Z :=
  match k with
  | O => []
  | S k' =>
    let v := nth j s 0 + (if (j + 1 <? size1)%nat then nth (j + 1) s 0 else fill) * B in
    (v / 2 ^ bits mod B) :: shr_loop k' (S j) size1 s fill bits
  end.
(** left shift: limbs j .. size1-1 *)
Fixpoint shl_loop (k : nat) (j : nat) (s : list Z) (bits left : Z) (is_neg : bool) : list Z :=
  match k with
  | O => if left =? 0 then []
         else [if is_neg then Z.lor left ((B - 1) * 2 ^ bits mod B) else left]
  | S k' =>
    let v := Z.lor (nth j s 0 * 2 ^ bits) left in
    (v mod B) :: shl_loop k' (S j) s bits (v / B) is_neg
  end.
Definition shift (b1 b2 : bi) (rev : bool) : eres :=
  let p1 := positive b1 in
  let p2 := if rev then - positive b2 else positive b2 in
  let size1 := length (mag b1) in
  if p2 =? 0 then ERet b1
  else if (1 <? length (mag b2))%nat then
    if p2 <? 0 then (if p1 <? 0 then ERet (signed true [1]) else ERet bi0)
    else EThrow
  else
    let s := if p1 <? 0 then complement (mag b1) else mag b1 in
    let y := nth 0 (mag b2) 0 in
    let off := Z.to_nat (y / 32) in
    let bits := y mod 32 in
    let d :=
      if p2 <? 0 then
        strip (shr_loop (size1 - off) off size1 s (if p1 <? 0 then B - 1 else 0) bits)
      else
        strip (repeat 0 off ++ shl_loop size1 0 s bits 0 (p1 <? 0)) in
    if p1 <? 0 then ERet (signed true (complement d)) else ERet (signed false d).
Definition left_shift (b1 b2 : bi) : eres := shift b1 b2 false.
Definition right_shift (b1 b2 : bi) : eres := shift b1 b2 true.

(** lines 2002-2094 — [bi_bit_op] *)
Fixpoint bit_loop (op : Z -> Z -> Z) (k i size1 size2 : nat) (t1 t2 : list Z) (f1 f2 : Z) : list Z :=
  match k with
  | O => []
  | S k' =>
    let v1 := if (i <? size1)%nat then nth i t1 0 else f1 in
    let v2 := if (i <? size2)%nat then nth i t2 0 else f2 in
    op v1 v2 :: bit_loop op k' (S i) size1 size2 t1 t2 f1 f2
  end.
Definition bit_op (op : Z -> Z -> Z) (b1 b2 : bi) : bi :=
  let n1 := positive b1 <? 0 in
  let n2 := positive b2 <? 0 in
  let s1 := length (mag b1) in
  let s2 := length (mag b2) in
  let t1 := if n1 then set_item (complement (mag b1)) s1 (B - 1) else set_item (mag b1) s1 0 in
  let t2 := if n2 then set_item (complement (mag b2)) s2 (B - 1) else set_item (mag b2) s2 0 in
  let size := Nat.max (S s1) (S s2) in
  let res := bit_loop op size 0 (S s1) (S s2) t1 t2
               (if n1 then B - 1 else 0) (if n2 then B - 1 else 0) in
  if 2147483648 <=? nth (size - 1) res 0
  then signed true (complement (strip res))
  else signed false (strip res).
Definition bitwise_and := bit_op Z.land.
Definition bitwise_or := bit_op Z.lor.
Definition bitwise_xor := bit_op Z.lxor.

(** Numbers of compare_number: not a number, an infinity, or the finite number
    [num / 2^k]. *)
Inductive number := NNaN | NInf (is_neg : bool) | NFin (num : Z) (k : Z).
(** lines 2189-2226 *)
Definition compare_number (b : bi) (n : number) : cmp :=
  match n with
  | NNaN => CUndefined
  | NInf s => if s then CGreater else CLess
  | NFin num k =>
    let i := Z.quot num (2 ^ k) in
    match compare b (set_number i) with
    | CEqual => if i * 2 ^ k <? num then CLess
                else if num <? i * 2 ^ k then CGreater else CEqual
    | r => r
    end
  end.

(** lines 2229-2278 — [bi_bits] *)
Fixpoint bits_loop (k i : nat) (inp : list Z) : list Z :=
  match k with
  | O => []
  | S k' => (if (i <? length inp)%nat then nth i inp 0 else 0) :: bits_loop k' (S i) inp
  end.
Definition bits_of (b : bi) (bits : Z) : list Z :=
  let inp := if positive b <? 0 then complement (mag b) else mag b in
  let off := Z.to_nat (bits / 32) in
  let bb := bits mod 32 in
  strip (bits_loop off 0 inp ++
         (if bb =? 0 then []
          else [(if (off <? length inp)%nat then nth off inp 0 else 0) mod 2 ^ bb])).
(** lines 2294-2336; [bits >= 0] *)
Definition as_int_n (bits : Z) (b : bi) : bi :=
  let res := bits_of b bits in
  let off := Z.to_nat (Z.quot (bits - 1) 32) in
  let bb := Z.rem (bits - 1) 32 in
  if (off <? length res)%nat && Z.testbit (nth off res 0) bb then
    signed true (complement (set_item res off (Z.lor (nth off res 0) ((B - 1) * 2 ^ bb mod B))))
  else signed false res.
(** lines 2349-2355 *)
Definition as_uint_n (bits : Z) (b : bi) : bi := signed false (bits_of b bits).

(** src/lib/rjs_number_object_inc.c:44-52 — Number(bigint): the int64_t that is
    then converted to double *)
Definition number_of_bigint (b : bi) : option Z := to_int64 b.
