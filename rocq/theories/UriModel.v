(** Model of encodeURI / decodeURI, src/lib/rjs_uri_functions_inc.c:50-303, and
    of the character helpers of src/lib/include/rjs_uchar.h:57-149.
    Strings are lists of 16-bit units (StrModel.v); a pointer into the string is
    the suffix it points to, reading past its end is [SUB]. *)
From Coq Require Import ZArith List Bool.
Import ListNotations.
From Verif Require Import StrModel.
Local Open Scope Z_scope.

(** rjs_uchar.h:68-74 *)
Definition is_xdigit (c : Z) : bool :=
  ((48 <=? c) && (c <=? 57)) || ((97 <=? c) && (c <=? 102)) || ((65 <=? c) && (c <=? 70)).
(** rjs_uchar.h:82-99 *)
Definition is_alpha (c : Z) : bool := ((97 <=? c) && (c <=? 122)) || ((65 <=? c) && (c <=? 90)).
Definition is_alnum (c : Z) : bool := is_alpha c || ((48 <=? c) && (c <=? 57)).
(** rjs_hex_char_to_number, rjs_uchar.h:106-117 *)
Definition hex_val (c : Z) : Z :=
  if (97 <=? c) && (c <=? 102) then c - 97 + 10
  else if (65 <=? c) && (c <=? 70) then c - 65 + 10
  else c - 48.
(** rjs_number_to_hex_char_u, rjs_uchar.h:140-149 *)
Definition hex_char_u (n : Z) : Z := if n <=? 9 then n + 48 else n - 10 + 65.

(** The characters ; / ? : @ & = + $ , # of both switches *)
Definition is_reserved (c : Z) : bool := existsb (Z.eqb c) [59; 47; 63; 58; 64; 38; 61; 43; 36; 44; 35].
(** - _ . ! ~ * ' ( ) *)
Definition is_mark (c : Z) : bool := existsb (Z.eqb c) [45; 95; 46; 33; 126; 42; 39; 40; 41].

(** Lines 76-81 and 137-142: c[1] and c[2] are examined in this order; the
    value, the two characters and the rest. *)
Definition hex2 (c : str) : sres (Z * Z * Z * str) :=
  match c with
  | [] => SUB
  | a :: r =>
      if negb (is_xdigit a) then SThrow
      else match r with
           | [] => SUB
           | b :: r' => if negb (is_xdigit b) then SThrow
                        else SOk (Z.lor (Z.shiftl (hex_val a) 4) (hex_val b), a, b, r')
           end
  end.

(** Lines 109-123: number of continuation bytes and the bits of the lead byte *)
Definition lead (uc : Z) : sres (nat * Z) :=
  if Z.land uc 0x80 =? 0 then SOk (0%nat, uc)
  else if Z.land uc 0xe0 =? 0xc0 then SOk (1%nat, Z.land uc 0x1f)
  else if Z.land uc 0xf0 =? 0xe0 then SOk (2%nat, Z.land uc 0x0f)
  else if Z.land uc 0xf8 =? 0xf0 then SOk (3%nat, Z.land uc 0x07)
  else SThrow.

(** Lines 130-154 *)
Fixpoint cont (n : nat) (c : str) (uc : Z) : sres (str * Z) :=
  match n with
  | O => SOk (c, uc)
  | S n' =>
      match c with
      | [] => SUB
      | c0 :: c' =>
          if negb (c0 =? 37) then SThrow
          else do h <- hex2 c';
               let '(v, _, _, r) := h in
               if negb (Z.land v 0xc0 =? 0x80) then SThrow
               else cont n' r (Z.lor (Z.shiftl uc 6) (Z.land v 0x3f))
      end
  end.

(** uri_decode, lines 50-165.  [None] = out of fuel. *)
Fixpoint decode_loop (fuel : nat) (comp : bool) (c ucb : str) : option (sres str) :=
  match fuel with
  | O => None
  | S fuel' =>
      match c with
      | [] => Some (SOk ucb)
      | c0 :: c' =>
          if negb (c0 =? 37) then decode_loop fuel' comp c' (ucb ++ [c0])
          else if (length c <? 2)%nat then Some SThrow
          else match hex2 c' with
               | SUB => Some SUB
               | SThrow => Some SThrow
               | SOk (uc, a, b, r) =>
                   if negb comp && is_reserved uc then decode_loop fuel' comp r (ucb ++ [37; a; b])
                   else match lead uc with
                        | SUB => Some SUB
                        | SThrow => Some SThrow
                        | SOk (n, bits) =>
                            if (length r <? n * 3)%nat then Some SThrow
                            else match cont n r bits with
                                 | SUB => Some SUB
                                 | SThrow => Some SThrow
                                 | SOk (r', v) => decode_loop fuel' comp r' (append_uc ucb v)
                                 end
                        end
               end
      end
  end.
Definition uri_decode (comp : bool) (s : str) : option (sres str) := decode_loop (S (length s)) comp s [].

(** Lines 181-217 *)
Definition unescaped (comp : bool) (c : Z) : bool :=
  is_mark c || is_alnum c || (negb comp && is_reserved c).

(** Lines 244-293: the escape sequences of a code point *)
Definition escape (uc : Z) : str :=
  let h := hex_char_u in
  let t k := Z.lor (Z.land (Z.shiftr uc k) 0x3) 0x8 in
  if uc <=? 0x7f then [37; h (Z.shiftr uc 4); h (Z.land uc 0xf)]
  else if uc <=? 0x7ff then
    [37; h (Z.lor (Z.shiftr uc 10) 0xc); h (Z.land (Z.shiftr uc 6) 0xf);
     37; h (t 4); h (Z.land uc 0xf)]
  else if uc <=? 0xffff then
    [37; h 0xe; h (Z.shiftr uc 12);
     37; h (t 10); h (Z.land (Z.shiftr uc 6) 0xf);
     37; h (t 4); h (Z.land uc 0xf)]
  else
    [37; h 0xf; h (Z.shiftr uc 18);
     37; h (t 16); h (Z.land (Z.shiftr uc 12) 0xf);
     37; h (t 10); h (Z.land (Z.shiftr uc 6) 0xf);
     37; h (t 4); h (Z.land uc 0xf)].

(** uri_encode, lines 167-303 *)
Fixpoint encode_loop (comp : bool) (c ucb : str) : sres str :=
  match c with
  | [] => SOk ucb
  | c0 :: c' =>
      if unescaped comp c0 then encode_loop comp c' (ucb ++ [c0])
      else if is_trailing c0 then SThrow
      else if is_leading c0 then
        match c' with
        | [] => SThrow
        | c1 :: c'' => if is_trailing c1 then encode_loop comp c'' (ucb ++ escape (pair_to_uc c0 c1)) else SThrow
        end
      else encode_loop comp c' (ucb ++ escape c0)
  end.
Definition uri_encode (comp : bool) (s : str) : sres str := encode_loop comp s [].
