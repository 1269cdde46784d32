(** UTF-8, UTF-16 and percent escapes, from the standards and independent of the
    model. *)
From Coq Require Import ZArith List.
Import ListNotations.
Local Open Scope Z_scope.

(** Unicode scalar values *)
Definition scalar (cp : Z) : Prop := 0 <= cp < 0xd800 \/ 0xe000 <= cp <= 0x10ffff.

(** UTF-8 encoding of a code point *)
Definition utf8 (cp : Z) : list Z :=
  if cp <? 0x80 then [cp]
  else if cp <? 0x800 then [192 + cp / 64; 128 + cp mod 64]
  else if cp <? 0x10000 then [224 + cp / 4096; 128 + cp / 64 mod 64; 128 + cp mod 64]
  else [240 + cp / 262144; 128 + cp / 4096 mod 64; 128 + cp / 64 mod 64; 128 + cp mod 64].

(** UTF-16 code units *)
Definition units (cp : Z) : list Z :=
  if cp <? 0x10000 then [cp] else [0xd800 + (cp - 0x10000) / 1024; 0xdc00 + (cp - 0x10000) mod 1024].
Definition units_of (cps : list Z) : list Z := flat_map units cps.

(** well-formed UTF-8 sequence of one scalar value *)
Definition strict (bs u : list Z) : Prop := exists cp, scalar cp /\ bs = utf8 cp /\ u = units cp.

(** anything with a lead byte and the right number of continuation bytes *)
Definition tail_byte (b : Z) : Prop := 0x80 <= b <= 0xbf.
Inductive lax : list Z -> list Z -> Prop :=
| lax1 : forall b, 0 <= b < 0x80 -> lax [b] (units b)
| lax2 : forall b c, 0xc0 <= b <= 0xdf -> tail_byte c -> lax [b; c] (units ((b - 0xc0) * 64 + (c - 0x80)))
| lax3 : forall b c d, 0xe0 <= b <= 0xef -> tail_byte c -> tail_byte d ->
    lax [b; c; d] (units ((b - 0xe0) * 4096 + (c - 0x80) * 64 + (d - 0x80)))
| lax4 : forall b c d e, 0xf0 <= b <= 0xf7 -> tail_byte c -> tail_byte d -> tail_byte e ->
    lax [b; c; d; e] (units ((b - 0xf0) * 262144 + (c - 0x80) * 4096 + (d - 0x80) * 64 + (e - 0x80))).

(** hexadecimal digits and escapes *)
Definition hex_digit (c v : Z) : Prop :=
  (48 <= c <= 57 /\ v = c - 48) \/ (65 <= c <= 70 /\ v = c - 55) \/ (97 <= c <= 102 /\ v = c - 87).
Inductive escapes : list Z -> list Z -> Prop :=
| esc_nil : escapes [] []
| esc_cons : forall a b x y bs s, hex_digit a x -> hex_digit b y -> escapes bs s ->
    escapes (16 * x + y :: bs) (37 :: a :: b :: s).
Definition upper (n : Z) : Z := if n <? 10 then 48 + n else 55 + n.
Definition percent (bs : list Z) : list Z := flat_map (fun b => [37; upper (b / 16); upper (b mod 16)]) bs.

(** ; / ? : @ & = + $ , and # *)
Definition reserved (c : Z) : Prop := In c [59; 47; 63; 58; 64; 38; 61; 43; 36; 44; 35].
(** letters, digits and - _ . ! ~ * ' ( ) *)
Definition unreserved (c : Z) : Prop :=
  48 <= c <= 57 \/ 65 <= c <= 90 \/ 97 <= c <= 122 \/ In c [45; 95; 46; 33; 126; 42; 39; 40; 41].
(** characters left alone by encodeURIComponent / encodeURI *)
Definition left_alone (comp : bool) (c : Z) : Prop := unreserved c \/ (comp = false /\ reserved c).

(** decodeURIComponent ([comp]) / decodeURI; [U] says which byte sequences are
    accepted and what they stand for *)
Inductive decodes (U : list Z -> list Z -> Prop) (comp : bool) : list Z -> list Z -> Prop :=
| D_nil : decodes U comp [] []
| D_char : forall c s t, c <> 37 -> decodes U comp s t -> decodes U comp (c :: s) (c :: t)
| D_keep : forall a b x y s t, comp = false -> hex_digit a x -> hex_digit b y -> reserved (16 * x + y) ->
    decodes U comp s t -> decodes U comp (37 :: a :: b :: s) (37 :: a :: b :: t)
| D_escape : forall bs e u s t, escapes bs e -> U bs u ->
    ~ (comp = false /\ exists r, bs = [r] /\ reserved r) ->
    decodes U comp s t -> decodes U comp (e ++ s) (u ++ t).

(** encodeURIComponent / encodeURI *)
Inductive encodes (comp : bool) : list Z -> list Z -> Prop :=
| E_nil : encodes comp [] []
| E_keep : forall c s t, left_alone comp c -> encodes comp s t -> encodes comp (c :: s) (c :: t)
| E_escape : forall cp s t, scalar cp -> ~ left_alone comp cp -> encodes comp s t ->
    encodes comp (units cp ++ s) (percent (utf8 cp) ++ t).
