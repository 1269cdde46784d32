(** The five encodings, arithmetically (RFC 3629, RFC 2781, ISO 10646). *)
From Coq Require Import ZArith List Bool.
Import ListNotations.
From Verif Require Import UriSpec UtfModel.
Local Open Scope Z_scope.

Definition le2 (u : Z) : list Z := [u mod 256; u / 256].
Definition be2 (u : Z) : list Z := [u / 256; u mod 256].
Definition be4 (cp : Z) : list Z := [cp / 16777216; cp / 65536 mod 256; cp / 256 mod 256; cp mod 256].

(** bytes of one code point ([utf8] and [units] are in UriSpec.v) *)
Definition bytes_of (e : encoding) (cp : Z) : list Z :=
  match e with
  | UTF8 => utf8 cp
  | UCS2LE => flat_map le2 (units cp)
  | UCS2BE => flat_map be2 (units cp)
  | UCS4LE => rev (be4 cp)
  | UCS4BE => be4 cp
  end.
Definition text (e : encoding) (cps : list Z) : list Z := flat_map (bytes_of e) cps.

(** Any 16-bit units: pairs make one code point, a lone surrogate stands for itself, a
    leading surrogate at the very end is left over. *)
Definition lead (u : Z) : bool := (0xd800 <=? u) && (u <=? 0xdbff).
Definition trail (u : Z) : bool := (0xdc00 <=? u) && (u <=? 0xdfff).
Fixpoint points (us : list Z) : list Z :=
  match us with
  | [] => []
  | u :: r =>
      if lead u then
        match r with
        | [] => []
        | v :: r' => if trail v then (0x10000 + (u - 0xd800) * 1024 + (v - 0xdc00)) :: points r' else u :: points r
        end
      else u :: points r
  end.
Fixpoint left_over (us : list Z) : list Z :=
  match us with
  | [] => []
  | u :: r => match r with [] => if lead u then [u] else [] | v :: r' => if lead u && trail v then left_over r' else left_over r end
  end.
Definition words (be : bool) (us : list Z) : list Z := flat_map (if be then be2 else le2) us.
