(** Model of the built-in text encoding conversion: src/lib/rjs_conv_internal_opt.c:28-391
    and src/lib/rjs_conv.c:38-82.  Bytes are integers 0..255 in lists; a pointer is the
    list it points to; [len]/[il] is the length of that list.  The default build uses ICU
    instead of rjs_conv_internal_opt.c (ENC_CONV=icu); the conversion loop of rjs_conv.c is
    shared.  Sizes are unbounded naturals: no text reaches 2^63 bytes.  Allocation succeeds. *)
From Coq Require Import ZArith List Bool.
Import ListNotations.
From Verif Require Import StrModel.
Local Open Scope Z_scope.

Inductive encoding := UTF8 | UCS2LE | UCS2BE | UCS4LE | UCS4BE.

(** to_uc: negative, 0, or the number of bytes and the character; UB = left shift into
    the sign bit of int *)
Inductive to_res := TErr | TMore | TUB | TOk (n : nat) (uc : Z).

Definition b16 (hi lo : Z) : Z := Z.lor lo (Z.shiftl hi 8).
Definition b32 (a b c d : Z) : to_res :=
  if 0x80 <=? a then TUB
  else TOk 4 (Z.lor (Z.lor (Z.lor (Z.shiftl a 24) (Z.shiftl b 16)) (Z.shiftl c 8)) d).
(** lines 29-63 *)
Definition utf8_to_uc (c : list Z) : to_res :=
  match c with
  | [] => TMore
  | c0 :: t =>
      if c0 <? 0x80 then TOk 1 c0
      else if Z.land c0 0xe0 =? 0xc0 then
        match t with
        | c1 :: _ => TOk 2 (Z.lor (Z.shiftl (Z.land c0 0x1f) 6) (Z.land c1 0x3f))
        | _ => TMore
        end
      else if Z.land c0 0xf0 =? 0xe0 then
        match t with
        | c1 :: c2 :: _ => TOk 3 (Z.lor (Z.lor (Z.shiftl (Z.land c0 0x0f) 12) (Z.shiftl (Z.land c1 0x3f) 6)) (Z.land c2 0x3f))
        | _ => TMore
        end
      else if Z.land c0 0xf8 =? 0xf0 then
        match t with
        | c1 :: c2 :: c3 :: _ =>
            TOk 4 (Z.lor (Z.lor (Z.lor (Z.shiftl (Z.land c0 0x07) 18) (Z.shiftl (Z.land c1 0x3f) 12)) (Z.shiftl (Z.land c2 0x3f) 6)) (Z.land c3 0x3f))
        | _ => TMore
        end
      else TErr
  end.
(** lines 94-122 and 152-180; [be] selects the byte order *)
Definition ucs2_to_uc (be : bool) (c : list Z) : to_res :=
  let w x y := if be then b16 x y else b16 y x in
  match c with
  | x :: y :: t =>
      let c1 := w x y in
      if negb (is_leading c1) then TOk 2 c1
      else match t with
           | z :: u :: _ =>
               let c2 := w z u in
               if negb (is_trailing c2) then TOk 2 c1 else TOk 4 (pair_to_uc c1 c2)
           | _ => TMore
           end
  | _ => TMore
  end.
(** lines 210-221 and 238-249 *)
Definition ucs4_to_uc (be : bool) (c : list Z) : to_res :=
  match c with
  | x :: y :: z :: u :: _ => if be then b32 x y z u else b32 u z y x
  | _ => TMore
  end.

(** from_uc: negative, 0, or the bytes written (the number returned is their number) *)
Inductive from_res := FErr | FFull | FOk (bs : list Z).
Definition byte (x : Z) : Z := Z.land x 0xff.
(** lines 66-91; the argument [len] is not used *)
Definition utf8_from_uc (uc : Z) (len : nat) : from_res :=
  if uc <? 0x80 then FOk [byte uc]
  else if uc <? 0x800 then FOk [byte (Z.lor (Z.shiftr uc 6) 0xc0); Z.lor (Z.land uc 0x3f) 0x80]
  else if uc <? 0x10000 then
    FOk [byte (Z.lor (Z.shiftr uc 12) 0xe0); Z.lor (Z.land (Z.shiftr uc 6) 0x3f) 0x80; Z.lor (Z.land uc 0x3f) 0x80]
  else if uc <? 0x200000 then
    FOk [byte (Z.lor (Z.shiftr uc 18) 0xf0); Z.lor (Z.land (Z.shiftr uc 12) 0x3f) 0x80;
         Z.lor (Z.land (Z.shiftr uc 6) 0x3f) 0x80; Z.lor (Z.land uc 0x3f) 0x80]
  else FErr.
(** lines 125-149 and 183-207 *)
Definition ucs2_from_uc (be : bool) (uc : Z) (len : nat) : from_res :=
  let w x := if be then [byte (Z.shiftr x 8); byte x] else [byte x; byte (Z.shiftr x 8)] in
  if 0xffff <? uc then
    if (len <? 4)%nat then FFull
    else let '(c1, c2) := uc_to_pair uc in FOk (w c1 ++ w c2)
  else if (len <? 2)%nat then FFull else FOk (w uc).
(** lines 224-235 and 252-263 *)
Definition ucs4_from_uc (be : bool) (uc : Z) (len : nat) : from_res :=
  if (len <? 4)%nat then FFull
  else
    let a := byte (Z.shiftr uc 24) in let b := byte (Z.shiftr uc 16) in
    let c := byte (Z.shiftr uc 8) in let d := byte uc in
    FOk (if be then [a; b; c; d] else [d; c; b; a]).

(** the table of lines 266-294 *)
Definition to_uc (e : encoding) (c : list Z) : to_res :=
  match e with
  | UTF8 => utf8_to_uc c | UCS2LE => ucs2_to_uc false c | UCS2BE => ucs2_to_uc true c
  | UCS4LE => ucs4_to_uc false c | UCS4BE => ucs4_to_uc true c
  end.
Definition from_uc (e : encoding) (uc : Z) (len : nat) : from_res :=
  match e with
  | UTF8 => utf8_from_uc uc len | UCS2LE => ucs2_from_uc false uc len | UCS2BE => ucs2_from_uc true uc len
  | UCS4LE => ucs4_from_uc false uc len | UCS4BE => ucs4_from_uc true uc len
  end.

(** rjs_conv_run, lines 345-391: status, input left, bytes written.  Writing more than
    the [ol] bytes left is undefined behaviour ([RUB]); [None] = out of fuel. *)
Inductive run_res := ROk (inp out : list Z) | RFalse (inp out : list Z) | RErr (inp out : list Z) | RUB.
Fixpoint run_loop (fuel : nat) (ei eo : encoding) (ip : list Z) (ol : nat) (out : list Z) : option run_res :=
  match fuel with
  | O => None
  | S fuel' =>
      match ip, ol with
      | [], _ => Some (ROk ip out)
      | _, O => Some (ROk ip out)
      | _, _ =>
          match to_uc ei ip with
          | TUB => Some RUB
          | TErr => Some (RErr ip out)
          | TMore => Some (ROk ip out)
          | TOk n uc =>
              match from_uc eo uc ol with
              | FErr => Some (RErr ip out)
              | FFull => Some (RFalse ip out)
              | FOk bs =>
                  if (ol <? length bs)%nat then Some RUB
                  else run_loop fuel' ei eo (skipn n ip) (ol - length bs) (out ++ bs)
              end
          end
      end
  end.
Definition conv_run (ei eo : encoding) (ip : list Z) (ol : nat) : option run_res :=
  run_loop (S (length ip)) ei eo ip ol [].

(** rjs_conv_to_buffer, rjs_conv.c:38-82.  The buffer is its bytes and its capacity. *)
Inductive buf_res := BOk (bytes : list Z) (cap : nat) | BErr | BUB.
Fixpoint buffer_loop (fuel : nat) (ei eo : encoding) (ip : list Z) (overflow : bool) (bytes : list Z) (cap : nat)
  : option buf_res :=
  match fuel with
  | O => None
  | S fuel' =>
      match ip, overflow with
      | [], false => Some (BOk bytes cap)
      | _, _ =>
          let num := length bytes in
          let cap' :=
            if (cap - num <? length ip)%nat || overflow
            then Nat.max 32 (Nat.max (length ip + num) (cap * 2)) else cap in
          match conv_run ei eo ip (cap' - num) with
          | None => None
          | Some RUB => Some BUB
          | Some (RErr _ _) => Some BErr
          | Some (RFalse ip' out) => buffer_loop fuel' ei eo ip' true (bytes ++ out) cap'
          | Some (ROk ip' out) =>
              match out with
              | [] => Some BErr
              | _ => buffer_loop fuel' ei eo ip' false (bytes ++ out) cap'
              end
          end
      end
  end.
Definition conv_to_buffer (ei eo : encoding) (ip : list Z) (bytes : list Z) (cap : nat) : option buf_res :=
  buffer_loop (S (S (2 * length ip))) ei eo ip false bytes cap.
