(** What a big integer stands for, independent of the algorithms. *)
From Coq Require Import ZArith List Bool.
Import ListNotations.
From Verif Require Import BigModel.
Open Scope Z_scope.

(** Value of a list of base 2^32 digits, least significant first. *)
Fixpoint eval (l : list Z) : Z :=
  match l with [] => 0 | x :: t => x + 4294967296 * eval t end.

Definition value (b : bi) : Z := if neg b then - eval (mag b) else eval (mag b).

(** Every digit is a uint32_t. *)
Definition limbs (l : list Z) : Prop := Forall (fun x => 0 <= x < 4294967296) l.

(** Normal form: digits in range, the top digit is not zero, zero is not
    negative. *)
Definition normal (b : bi) : Prop :=
  limbs (mag b) /\ last (mag b) 1 <> 0 /\ (mag b = [] -> neg b = false).

(** Comparison of integers as the code reports it. *)
Definition cmpZ (a b : Z) : cmp :=
  if a =? b then CEqual else if a <? b then CLess else CGreater.

(** Value of a numeral, most significant digit first. *)
Definition numeral (ds : list Z) (radix : Z) : Z :=
  fold_left (fun v d => v * radix + d) ds 0.
(** Digit characters 0-9, a-z. *)
Definition char_digit (c : Z) : option Z :=
  if (48 <=? c) && (c <=? 57) then Some (c - 48)
  else if (97 <=? c) && (c <=? 122) then Some (c - 87)
  else None.

(** [B^i], and the borrow into digit [i] of the subtraction [a - b]. *)
Definition Bp (i : nat) : Z := 4294967296 ^ Z.of_nat i.
Definition borrow (a b : Z) (i : nat) : Prop := a mod Bp i < b mod Bp i.
(** Once there is a borrow it continues up to the top digit of [a]. *)
Definition borrow_chain (a b : Z) : Prop :=
  forall i j, (i <= j)%nat -> Bp j <= a -> borrow a b i -> borrow a b j.

Definition same_sign (a b : Z) : Prop := (a < 0 <-> b < 0).

(** The operands on which [bi_mul] gets the sign wrong. *)
Definition mul_sign_fault (a b : Z) : Prop :=
  a < -1 /\ Z.abs b mod 4294967296 = 1 /\ Z.abs b <> 1.

(** A negative base other than -1 to the power 1 loses its sign. *)
Definition exp_sign_fault (a e : Z) : Prop := a < -1 /\ e = 1.

(** A bitwise operation given by a boolean function. *)
Definition is_bitop (op : Z -> Z -> Z) (f : bool -> bool -> bool) : Prop :=
  f false false = false /\
  forall a b k, 0 <= k -> Z.testbit (op a b) k = f (Z.testbit a k) (Z.testbit b k).

(** The two's complement window of a negative number is its own limbs. *)
Definition window_ok (v bits : Z) (nlimbs : nat) : Prop := 0 <= v \/ bits <= 32 * Z.of_nat nlimbs.

(** The signed reading of the low bits. *)
Definition to_signed (bits x : Z) : Z :=
  if 2 ^ (bits - 1) <=? x then x - 2 ^ bits else x.

(** right shift of a negative number: exact iff the top limb of the window survives *)
Definition shr_ok (v : Z) (n : nat) (y : Z) : Prop :=
  0 <= v \/ 32 * Z.of_nat n <= y \/
  2 ^ (32 * (Z.of_nat n - y / 32 - 1)) <= 2 ^ (32 * (Z.of_nat n - y / 32)) + v / 2 ^ y.

(** left shift of a negative number: exact iff its two's complement window
    still reaches the top limb *)
Definition shl_ok (v : Z) (n : nat) (y : Z) : Prop :=
  0 <= v \/
  (y mod 32 = 0 /\ 2 ^ (32 * (Z.of_nat n - 1)) <= 2 ^ (32 * Z.of_nat n) + v) \/
  (0 < y mod 32 /\ 2 ^ (32 * Z.of_nat n) <= (2 ^ (32 * Z.of_nat n) + v) * 2 ^ (y mod 32)).

(** what a shift by [n] (left when positive) must give *)
Definition shifted (v n : Z) : Z := if n <? 0 then v / 2 ^ (- n) else v * 2 ^ n.

(** when it does: non-negative values, or a two's complement window that keeps
    its top limb *)
Definition shift_ok (v : Z) (nl : nat) (n : Z) : Prop :=
  if n <? 0 then shr_ok v nl (- n) else n = 0 \/ shl_ok v nl n.

(** The integers a double can hold. *)
Definition double_int (i : Z) : Prop :=
  exists m k, 0 <= k /\ k <= 971 /\ Z.abs m < 2 ^ 53 /\ i = m * 2 ^ k.

(** Comparing with the number [num / 2^k]. *)
Definition num_rel (v num k : Z) : cmp := cmpZ (v * 2 ^ k) num.

Definition digits_ok (ds : list Z) (radix : Z) : Prop := Forall (fun d => 0 <= d < radix) ds.

(** Every subtraction the division of [a] by [d] (of [m] limbs) can meet is
    exact: [X] has at most [s + m + 1] limbs. *)
Definition step_ok (a d : Z) (m : nat) : Prop :=
  forall X s n, 0 <= X <= a -> X < Bp (s + m + 1) -> 0 < n < B -> n * (Bp s * d) <= X ->
    borrow_chain X (n * (Bp s * d)).

(** [d] is an integral double nearest to [z] (below the overflow threshold
    every nearest double of a large integer is integral). *)
Definition nearest_double (z d : Z) : Prop :=
  double_int d /\ forall d', double_int d' -> Z.abs (z - d) <= Z.abs (z - d').
