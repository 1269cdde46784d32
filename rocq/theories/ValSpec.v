(** What may be stored in a value word. *)
From Coq Require Import ZArith.
From Verif Require Import NumSpec ValModel.
Local Open Scope Z_scope.

(** x86-64 / AArch64 user and kernel addresses: bits 47..63 are equal *)
Definition canonical (p : Z) : Prop := 0 <= p < 2 ^ 47 \/ 2 ^ 64 - 2 ^ 47 <= p < 2 ^ 64.

(** numbers the engine itself produces: everything but NaN, and the two NaN
    patterns of C's NAN and of x86 arithmetic *)
Definition plain_number (b : Z) : Prop :=
  (exists s m e, double b s m e) \/ (exists s, infinite b s) \/
  b = 0x7ff8000000000000 \/ b = 0xfff8000000000000.

Definition storable (v : jsval) : Prop :=
  match v with
  | VUndefined | VNull | VBool _ => True
  | VNumber n => plain_number n
  | VIndexString i => 0 <= i < 2 ^ 32
  | VString p | VSymbol p | VBigInt p | VObject p | VGcThing p => canonical p
  end.

Definition kind (v : jsval) : vtype :=
  match v with
  | VUndefined => TUndefined | VNull => TNull | VBool _ => TBoolean | VNumber _ => TNumber
  | VString _ | VIndexString _ => TString | VSymbol _ => TSymbol | VBigInt _ => TBigInt
  | VObject _ => TObject | VGcThing _ => TGcThing
  end.

(** what the collector has to follow *)
Definition referenced (v : jsval) : option Z :=
  match v with
  | VString p | VSymbol p | VBigInt p | VObject p | VGcThing p => Some p
  | _ => None
  end.
