(** What the views of array buffers must do, stated on the state of ViewModel.v. *)
From Coq Require Import ZArith List Bool.
Import ListNotations.
From Verif Require Import StrModel NumModel BufModel ViewModel.
Local Open Scope Z_scope.

(** An access lies in the range of the view it is made for. *)
Definition inside (v : view) (e : event) : Prop :=
  ebuf e = vbuf v /\ voff v <= epos e /\ 0 <= elen e /\ epos e + elen e <= voff v + vbytes v.
Definition respects (s : st) : Prop :=
  forall e, In e (log s) -> exists v, nth_error (views s) (eview e) = Some v /\ inside v e.

(** The stored bytes have the size of the element type. *)
Definition sized (enc : etype -> bool -> Z -> list Z) : Prop :=
  forall t le v, length (enc t le v) = esize t.

(** The bytes of an ArrayBuffer; [None] when it is detached or does not exist. *)
Definition contents (s : st) (b : nat) : option (list Z) :=
  match nth_error (bufs s) b with
  | Some (mkBuf (Some k) _) => match nth_error (blocks s) k with Some x => bdata x | None => None end
  | _ => None
  end.

(** Bytes [pos .. pos + n) of [d]; [d] with the bytes from [pos] replaced by [bs]. *)
Definition sub (d : list Z) (pos n : nat) : list Z := firstn n (skipn pos d).
Definition splice (d : list Z) (pos : nat) (bs : list Z) : list Z :=
  firstn pos d ++ bs ++ skipn (pos + length bs) d.

(** The relative index of the standard: negative counts from the end, the result
    is in 0 .. len. *)
Definition clamped (r : num) (len : Z) : Z :=
  match r with
  | NInf => 0
  | PInf => len
  | Fin z => if z <? 0 then Z.max 0 (len + z) else Z.min z len
  end.

(** The elements of [n] bytes each in a byte string. *)
Fixpoint chunks (count n : nat) (d : list Z) : list (list Z) :=
  match count with O => [] | S c => firstn n d :: chunks c n (skipn n d) end.

(** States that programs reach. *)
Definition reached (enc : etype -> bool -> Z -> list Z) (dec : etype -> bool -> list Z -> Z) (native : bool) (s : st) : Prop :=
  exists p, run enc dec native p init = Ret tt s.

(** An argument whose conversion runs program [p] and gives the double [r]. *)
Definition converts (enc : etype -> bool -> Z -> list Z) (dec : etype -> bool -> list Z -> Z) (native : bool)
    (p : list act) (r : Z) : arg :=
  Val (run enc dec native p ;; ret r).

(** Buffers with the same memory. *)
Definition shares (s : st) (b b' : nat) : Prop :=
  exists k n n', nth_error (bufs s) b = Some (mkBuf (Some k) n) /\ nth_error (bufs s) b' = Some (mkBuf (Some k) n').

(** The double [n] is the integer [i] and not -0. *)
Definition denotes (n i : Z) : Prop :=
  is_nan n = false /\ is_inf n = false /\ dsign n = false /\ dval n = i * unit.

(** First byte of element [i]. *)
Definition element_start (v : view) (t : etype) (i : Z) : nat := Z.to_nat (voff v + Z.of_nat (esize t) * i).

(** What storing elements of type [stp] (in [src]) as elements of type [ttp] writes. *)
Definition stored_bytes (enc : etype -> bool -> Z -> list Z) (dec : etype -> bool -> list Z -> Z) (native : bool)
    (stp ttp : etype) (n : nat) (src : list Z) : list Z :=
  List.concat (map (fun c => if etype_eqb stp ttp then c else enc ttp native (dec stp native c)) (chunks n (esize stp) src)).
