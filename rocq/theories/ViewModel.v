(** Model of ArrayBuffer, DataView and TypedArray objects and of their raw
    memory accesses:
    src/lib/rjs_data_block_opt.c, rjs_array_buffer_opt.c,
    rjs_data_view_object_inc.c, rjs_int_indexed_object_opt.c and the methods of
    rjs_typed_array_object_inc.c that touch buffer memory.
    - Every conversion of an argument may run user code.  User code is a program
      of further operations (detach included), given with the operation.
    - Which bytes a stored value becomes, and which value read bytes are, is a
      parameter ([enc], [dec]); BufModel.v has the conversions.
    - malloc may fail at any allocation (a flag of the operation).
    - size_t arithmetic wraps; ssize_t overflow, access outside a live block and
      use of a detached buffer are the outcome [Ub].
    - Not modelled: the interleavings of threads on shared blocks, sort (its
      element accesses are in SortModel.v), pointer arithmetic on the NULL data
      pointer of an empty block. *)
From Coq Require Import ZArith List Bool.
Import ListNotations.
From Verif Require Import StrModel NumModel BufModel.
Local Open Scope Z_scope.

(** ** State *)

(** RJS_DataBlock: [bdata = None] after free. *)
Record block := mkBlock { bdata : option (list Z); bshared : bool }.

(** RJS_ArrayBuffer: data_block and byte_length *)
Record buf := mkBuf { db : option nat; blen : Z }.

(** RJS_DataView ([vtype = None]; byte_offset, byte_length) and
    RJS_IntIndexedObject (type, byte_offset, byte_length, array_length) *)
Record view := mkView { vtype : option etype; vbuf : nat; voff : Z; vbytes : Z; vcount : Z }.

(** A memory access on behalf of a view: write or read, ArrayBuffer, first byte,
    number of bytes, view. *)
Record event := Ev { ewrite : bool; ebuf : nat; epos : Z; elen : Z; eview : nat }.

(** [overlap]: a memcpy had overlapping operands.  [stuck]: a non-recursive mutex
    was locked twice by one thread.  Both are recorded and execution goes on. *)
Record st := mkSt { blocks : list block; bufs : list buf; views : list view;
                    log : list event; overlap : bool; stuck : bool }.

Definition init : st := mkSt [] [] [] [] false false.

Definition done := Datatypes.unit.
(** Outcomes: result, JavaScript exception, undefined behaviour. *)
Inductive res (A : Type) := Ret (a : A) (s : st) | Thr (s : st) | Ub.
Arguments Ret {A}. Arguments Thr {A}. Arguments Ub {A}.
Definition M (A : Type) : Type := st -> res A.
Definition ret {A} (a : A) : M A := fun s => Ret a s.
Definition throw {A} : M A := fun s => Thr s.
Definition ub {A} : M A := fun _ => Ub.
Definition bind {A B} (m : M A) (k : A -> M B) : M B :=
  fun s => match m s with Ret a s' => k a s' | Thr s' => Thr s' | Ub => Ub end.
Notation "'let!' x ':=' m 'in' k" := (bind m (fun x => k)) (at level 200, x pattern, right associativity).
Notation "m ';;' k" := (bind m (fun _ => k)) (at level 199, right associativity).
Definition when (c : bool) (m : M done) : M done := if c then m else ret tt.
Definition throw_if (c : bool) : M done := if c then throw else ret tt.
Definition assert (c : bool) : M done := if c then ret tt else ub.
Definition get : M st := fun s => Ret s s.
Definition put (s : st) : M done := fun _ => Ret tt s.

Fixpoint upd {A} (n : nat) (a : A) (l : list A) : list A :=
  match l, n with
  | [], _ => []
  | _ :: t, O => a :: t
  | x :: t, S k => x :: upd k a t
  end.

Definition set_blocks (bs : list block) (s : st) : st :=
  mkSt bs (bufs s) (views s) (log s) (overlap s) (stuck s).
Definition set_bufs (bs : list buf) (s : st) : st :=
  mkSt (blocks s) bs (views s) (log s) (overlap s) (stuck s).
Definition add_view (v : view) (s : st) : st :=
  mkSt (blocks s) (bufs s) (views s ++ [v]) (log s) (overlap s) (stuck s).
Definition add_event (e : event) (s : st) : st :=
  mkSt (blocks s) (bufs s) (views s) (log s ++ [e]) (overlap s) (stuck s).
Definition flag (o k : bool) (s : st) : st :=
  mkSt (blocks s) (bufs s) (views s) (log s) (overlap s || o) (stuck s || k).

(** size_t arithmetic; ssize_t / int64_t arithmetic *)
Definition u64 (z : Z) : Z := z mod 2 ^ 64.
Definition s64 (z : Z) : M Z := if (- 2 ^ 63 <=? z) && (z <? 2 ^ 63) then ret z else ub.
(** conversion of a size_t to int64_t *)
Definition to_s64 (z : Z) : Z := to_signed 64 z.

Definition the_buf (b : nat) : M buf :=
  fun s => match nth_error (bufs s) b with Some x => Ret x s | None => Ub end.
Definition the_view (v : nat) : M view :=
  fun s => match nth_error (views s) v with Some x => Ret x s | None => Ub end.

(** rjs_is_detached_buffer, rjs_array_buffer_opt.c:69-83 *)
Definition is_detached (b : nat) : M bool :=
  let! x := the_buf b in ret (match db x with None => true | Some _ => false end).
Definition check_detached (b : nat) : M done :=
  let! d := is_detached b in throw_if d.

(** ** Memory *)

(** Read and write [n] bytes of a block from byte [pos]. *)
Definition block_read (k : nat) (pos n : Z) : M (list Z) :=
  fun s => match nth_error (blocks s) k with
           | Some (mkBlock (Some d) _) =>
               if (0 <=? pos) && (0 <=? n) && (pos + n <=? Z.of_nat (length d))
               then Ret (firstn (Z.to_nat n) (skipn (Z.to_nat pos) d)) s
               else Ub
           | _ => Ub
           end.
Definition block_write (k : nat) (pos : Z) (bs : list Z) : M done :=
  fun s => match nth_error (blocks s) k with
           | Some (mkBlock (Some d) h) =>
               if (0 <=? pos) && (pos + Z.of_nat (length bs) <=? Z.of_nat (length d))
               then Ret tt (set_blocks (upd k (mkBlock (Some (firstn (Z.to_nat pos) d ++ bs
                             ++ skipn (Z.to_nat pos + length bs) d)) h) (blocks s)) s)
               else Ub
           | _ => Ub
           end.

(** The data block of an ArrayBuffer; NULL when detached *)
Definition block_of (b : nat) : M nat :=
  let! x := the_buf b in match db x with Some k => ret k | None => ub end.
Definition note (w : bool) (b : nat) (pos n : Z) (o : option nat) : M done :=
  match o with None => ret tt | Some v => fun s => Ret tt (add_event (Ev w b pos n v) s) end.

(** Access to the memory of buffer [b] on behalf of view [o] (if any) *)
Definition mem_read (b : nat) (pos n : Z) (o : option nat) : M (list Z) :=
  let! k := block_of b in note false b pos n o ;; block_read k pos n.
Definition mem_write (b : nat) (pos : Z) (bs : list Z) (o : option nat) : M done :=
  let! k := block_of b in note true b pos (Z.of_nat (length bs)) o ;; block_write k pos bs.

(** rjs_data_block_new, rjs_data_block_opt.c:107-146; [ok] = malloc succeeds.
    malloc fails for 2^53 bytes and more: that is beyond the address space. *)
Definition data_block_new (size : Z) (shared ok : bool) : M nat :=
  if (size <? 0) || (2 ^ 53 <=? size) || negb ok then throw
  else fun s => Ret (length (blocks s))
                    (set_blocks (blocks s ++ [mkBlock (Some (repeat 0 (Z.to_nat size))) shared]) s).

(** rjs_data_block_unref, rjs_data_block_opt.c:202-208: the references are the
    data_block fields of the ArrayBuffers. *)
Definition refs (k : nat) (bs : list buf) : nat :=
  length (filter (fun b => match db b with Some j => Nat.eqb j k | None => false end) bs).
Definition data_block_unref (k : nat) : M done :=
  fun s => Ret tt (if Nat.eqb (refs k (bufs s)) 1
                   then set_blocks (upd k (mkBlock None (match nth_error (blocks s) k with
                                                         | Some b => bshared b | None => false end))
                                        (blocks s)) s
                   else s).

(** rjs_allocate_array_buffer and rjs_allocate_shared_array_buffer,
    rjs_array_buffer_opt.c:161-180, 224-249; [proto] is the lookup of the
    constructor's prototype.  On failure of malloc the object is garbage that
    nothing refers to. *)
Definition allocate_array_buffer (proto : M Z) (len : Z) (shared ok : bool) : M nat :=
  proto ;;
  let! k := data_block_new len shared ok in
  fun s => Ret (length (bufs s)) (set_bufs (bufs s ++ [mkBuf (Some k) len]) s).
Definition no_user_code : M Z := ret 0.

(** the db argument of rjs_allocate_shared_array_buffer: another ArrayBuffer
    object for the data block of buffer [b] *)
Definition alias_array_buffer (b : nat) : M nat :=
  let! x := the_buf b in
  match db x with
  | Some k => fun s => Ret (length (bufs s)) (set_bufs (bufs s ++ [mkBuf (Some k) (blen x)]) s)
  | None => throw
  end.

(** rjs_detach_array_buffer, rjs_array_buffer_opt.c:190-208 *)
Definition detach_array_buffer (b : nat) : M done :=
  let! x := the_buf b in
  match db x with
  | Some k => data_block_unref k ;; fun s => Ret tt (set_bufs (upd b (mkBuf None 0) (bufs s)) s)
  | None => ret tt
  end.

(** rjs_clone_array_buffer, rjs_array_buffer_opt.c:734-764; [o]: the view on the
    source *)
Definition clone_array_buffer (src : nat) (byte_off len : Z) (ok : bool) (o : option nat) : M nat :=
  let! n := allocate_array_buffer no_user_code (to_s64 len) false ok in
  check_detached src ;;
  let! bs := mem_read src byte_off len o in
  mem_write n 0 bs None ;;
  ret n.

(** ** Arguments *)

(** An argument: undefined, or a value whose conversion to a number may run user
    code. *)
Inductive arg := Undef | Val (c : M Z).
Definition arg_at (l : list arg) (i : nat) : arg := nth i l Undef.

(** NumModel.v models the numeric part of these conversions.
    rjs_to_index, rjs_operation.c:164-197 *)
Definition to_index (a : arg) : M Z :=
  match a with
  | Undef => ret 0
  | Val c => let! b := c in match rjs_to_index (Some b) with Some z => ret z | None => throw end
  end.
(** rjs_to_integer_or_infinity, rjs_operation.h:703-726; undefined is NaN *)
Definition to_integer (a : arg) : M num :=
  match a with Undef => ret (Fin 0) | Val c => let! b := c in ret (to_integer_or_infinity b) end.
(** rjs_to_number / rjs_to_big_int of a value to be stored *)
Definition to_value (a : arg) : M Z :=
  match a with Undef => ret NAN | Val c => c end.
(** user code without a result of interest *)
Definition user (a : arg) : M Z := to_value a.

(** ** DataView *)

Section ENC.
Variable enc : etype -> bool -> Z -> list Z.
Variable dec : etype -> bool -> list Z -> Z.
(** rjs_is_little_endian *)
Variable native : bool.

Definition size_of (t : etype) : Z := Z.of_nat (esize t).

(** rjs_get_value_from_buffer, rjs_set_value_in_buffer,
    rjs_array_buffer_opt.c:669-689, 702-722 *)
Definition get_value_from_buffer (b : nat) (pos : Z) (t : etype) (le : bool) (o : option nat) : M Z :=
  let! d := is_detached b in
  assert (negb d) ;;
  let! bs := mem_read b pos (size_of t) o in
  ret (dec t le bs).
Definition set_value_in_buffer (b : nat) (pos : Z) (t : etype) (v : Z) (le : bool) (o : option nat) : M done :=
  let! d := is_detached b in
  assert (negb d) ;;
  mem_write b pos (enc t le v) o.

Definition new_view (v : view) : M Z :=
  fun s => Ret (Z.of_nat (length (views s))) (add_view v s).

(** DataView_constructor, rjs_data_view_object_inc.c:66-136.  [buffer] is an
    ArrayBuffer; the object becomes reachable when the constructor returns. *)
Definition data_view_constructor (buffer : nat) (byte_off byte_len proto : arg) : M Z :=
  let! offset := to_index byte_off in
  check_detached buffer ;;
  let! ab := the_buf buffer in
  let buf_byte_len := blen ab in
  throw_if (buf_byte_len <? offset) ;;
  let! view_byte_len :=
    match byte_len with
    | Undef => ret (to_s64 (u64 (buf_byte_len - offset)))
    | _ => let! l := to_index byte_len in
           let! e := s64 (offset + l) in
           throw_if (buf_byte_len <? u64 e) ;; ret l
    end in
  user proto ;;
  check_detached buffer ;;
  new_view (mkView None buffer offset view_byte_len 0).

(** get_view_value, rjs_data_view_object_inc.c:158-193 *)
Definition get_view_value (vi : nat) (req_idx : arg) (is_little : bool) (t : etype) : M Z :=
  let! dv := the_view vi in
  match vtype dv with
  | Some _ => throw
  | None =>
      let! get_idx := to_index req_idx in
      check_detached (vbuf dv) ;;
      throw_if (vbytes dv <? u64 (get_idx + size_of t)) ;;
      get_value_from_buffer (vbuf dv) (u64 (get_idx + voff dv)) t is_little (Some vi)
  end.

(** set_view_value, rjs_data_view_object_inc.c:196-250 *)
Definition set_view_value (vi : nat) (req_idx : arg) (is_little : bool) (t : etype) (v : arg) : M Z :=
  let! dv := the_view vi in
  match vtype dv with
  | Some _ => throw
  | None =>
      let! get_idx := to_index req_idx in
      let! setv := to_value v in
      check_detached (vbuf dv) ;;
      throw_if (vbytes dv <? u64 (get_idx + size_of t)) ;;
      set_value_in_buffer (vbuf dv) (u64 (get_idx + voff dv)) t setv is_little (Some vi) ;;
      ret 0
  end.

(** ** Elements of integer-indexed objects *)

(** A TypedArray and its element type; anything else is a TypeError *)
Definition the_array (vi : nat) : M (view * etype) :=
  let! v := the_view vi in match vtype v with Some t => ret (v, t) | None => throw end.

(** rjs_is_valid_int_index, rjs_int_indexed_object_opt.c:65-86; rjs_is_integral_number,
    rjs_operation.h:88-97 *)
Definition is_valid_int_index (iio : view) (n : Z) : M (option Z) :=
  let! d := is_detached (vbuf iio) in
  if d then ret None
  else if is_nan n || is_inf n then ret None
  else if negb (dval n mod unit =? 0) then ret None
  else if dsign n then ret None
  else
    let z := dval n / unit in
    if (z <? 0) || (vcount iio <=? z) then ret None else ret (Some z).

(** rjs_int_indexed_element_get, rjs_int_indexed_object_opt.c:97-117 *)
Definition element_get (vi : nat) (n : Z) : M (option Z) :=
  let! (iio, t) := the_array vi in
  let! i := is_valid_int_index iio n in
  match i with
  | None => ret None
  | Some idx =>
      let pos := u64 (voff iio + u64 (size_of t * idx)) in
      let! x := get_value_from_buffer (vbuf iio) pos t native (Some vi) in
      ret (Some x)
  end.

(** rjs_int_indexed_element_set, rjs_int_indexed_object_opt.c:128-168 *)
Definition element_set (vi : nat) (n : Z) (v : arg) : M done :=
  let! (iio, t) := the_array vi in
  let! ev := to_value v in
  let! i := is_valid_int_index iio n in
  match i with
  | None => ret tt
  | Some idx =>
      let pos := u64 (voff iio + u64 (size_of t * idx)) in
      set_value_in_buffer (vbuf iio) pos t ev native (Some vi)
  end.

(** ** TypedArray constructors, rjs_typed_array_object_inc.c:2414-2754.
    The array is reachable by user code when the constructor returns; before
    that its fields are local. *)

(** allocate_typed_array_buffer, 2415-2439 *)
Definition allocate_typed_array_buffer (t : etype) (len : Z) (ok : bool) : M view :=
  let dlen := u64 (size_of t * len) in
  let! b := allocate_array_buffer no_user_code (to_s64 dlen) false ok in
  ret (mkView (Some t) b 0 dlen len).

(** typedef_array_constructor with a length argument, 2751-2757, 2442-2470 *)
Definition typed_array_of_length (t : etype) (length proto : arg) (ok : bool) : M Z :=
  let! elen := to_index length in
  user proto ;;
  let! v := allocate_typed_array_buffer t elen ok in
  new_view v.

(** initialize_typed_array_from_array_buffer, 2545-2611 *)
Definition typed_array_of_buffer (t : etype) (b : nat) (proto boff length : arg) : M Z :=
  user proto ;;
  let es := size_of t in
  let! off := to_index boff in
  throw_if (negb (off mod es =? 0)) ;;
  let! nlen := to_index length in
  check_detached b ;;
  let! ab := the_buf b in
  let buf_blen := blen ab in
  let! new_blen :=
    match length with
    | Undef =>
        throw_if (negb (buf_blen mod es =? 0)) ;;
        let! n := s64 (buf_blen - off) in
        throw_if (n <? 0) ;; ret n
    | _ =>
        let n := to_s64 (u64 (nlen * es)) in
        let! e := s64 (off + n) in
        throw_if (buf_blen <? e) ;; ret n
    end in
  new_view (mkView (Some t) b off new_blen (u64 new_blen / es)).

(** The loop of lines 2521-2528: element by element with conversion *)
Fixpoint convert_elements (n : nat) (sb : nat) (st_ : etype) (si : Z) (so : option nat)
    (tb : nat) (tt_ : etype) (ti : Z) (to_ : option nat) : M done :=
  match n with
  | O => ret tt
  | S n' =>
      let! x := get_value_from_buffer sb si st_ native so in
      set_value_in_buffer tb ti tt_ x native to_ ;;
      convert_elements n' sb st_ (u64 (si + size_of st_)) so tb tt_ (u64 (ti + size_of tt_)) to_
  end.

Definition content_is_big_int (t : etype) : bool :=
  match t with BIGINT64 | BIGUINT64 => true | _ => false end.

Definition etype_eqb (a b : etype) : bool :=
  match a, b with
  | UINT8, UINT8 | UINT8C, UINT8C | INT8, INT8 | UINT16, UINT16 | INT16, INT16
  | UINT32, UINT32 | INT32, INT32 | BIGUINT64, BIGUINT64 | BIGINT64, BIGINT64
  | FLOAT32, FLOAT32 | FLOAT64, FLOAT64 => true
  | _, _ => false
  end.

(** initialize_typed_array_from_typed_array, 2472-2542 *)
Definition typed_array_of_typed_array (t : etype) (si : nat) (proto : arg) (ok : bool) : M Z :=
  let! (siio, stype) := the_array si in
  user proto ;;
  let blen_ := u64 (size_of t * vcount siio) in
  let! data :=
    (if etype_eqb t stype
     then clone_array_buffer (vbuf siio) (voff siio) blen_ ok (Some si)
     else
       let! data := allocate_array_buffer no_user_code (to_s64 blen_) false ok in
       check_detached (vbuf siio) ;;
       throw_if (negb (Bool.eqb (content_is_big_int t) (content_is_big_int stype))) ;;
       convert_elements (Z.to_nat (vcount siio)) (vbuf siio) stype (voff siio) (Some si)
                        data t 0 None ;;
       ret data) in
  new_view (mkView (Some t) data 0 blen_ (vcount siio)).

(** initialize_typed_array_from_iterator and ..._from_arrray_like, 2613-2697: the
    values [vs] (each with the user code that produces it) are stored one after
    the other with rjs_set_index.  The model makes the array reachable as soon as
    it has its buffer (more behaviours than the code has).  rjs_length_of_array_like
    is below 2^53; as many iterated values do not fit in memory. *)
Fixpoint store_all (vi : nat) (k : Z) (vs : list arg) : M done :=
  match vs with
  | [] => ret tt
  | v :: t => element_set vi (dbl_of_int k) v ;; store_all vi (k + 1) t
  end.
Definition typed_array_of_list (t : etype) (proto pre : arg) (vs : list arg) (ok : bool) : M Z :=
  user proto ;;
  user pre ;;
  throw_if (2 ^ 53 <=? Z.of_nat (length vs)) ;;
  let! v := allocate_typed_array_buffer t (Z.of_nat (length vs)) ok in
  let! vi := new_view v in
  store_all (Z.to_nat vi) 0 vs ;;
  ret vi.

(** ** TypedArray methods *)

(** valid_typed_array, rjs_typed_array_object_inc.c:51-65 *)
Definition valid_typed_array (vi : nat) : M (view * etype) :=
  let! (v, t) := the_array vi in
  check_detached (vbuf v) ;;
  ret (v, t).

(** An integer rounded to double (nearest, ties to even); overflow is not
    modelled, the values compared with it are below 2^53. *)
Definition rnd (z : Z) : Z :=
  let l := Z.log2 (Z.abs z) in
  if l <=? 52 then z
  else Z.sgn z * (round_half_even (Z.abs z) (2 ^ (l - 52)) * 2 ^ (l - 52)).

(** if (rel == -INFINITY) 0; else if (rel < 0) RJS_MAX(rel + len, 0);
    else RJS_MIN(rel, len), computed in doubles and cast to ssize_t:
    lines 318-323, 328-333, 341-346, 476-481, ... *)
Definition relative (rel : num) (len : Z) : M Z :=
  match rel with
  | NInf => ret 0
  | Fin r => if r <? 0 then s64 (Z.max (rnd (r + len)) 0) else s64 (Z.min r len)
  | PInf => ret len
  end.

(** rel_end: undefined is len *)
Definition to_end (a : arg) (len : Z) : M num :=
  match a with Undef => ret (Fin len) | _ => to_integer a end.

(** TypedArray_prototype_copyWithin, 298-384.  memmove copies through a
    temporary. *)
Definition copy_within (vi : nat) (target start end_ : arg) : M done :=
  let! (iio, t) := valid_typed_array vi in
  let len := vcount iio in
  let! rel_target := to_integer target in
  let! to := relative rel_target len in
  let! rel_start := to_integer start in
  let! from := relative rel_start len in
  let! rel_end := to_end end_ len in
  let! final := relative rel_end len in
  let! d1 := s64 (final - from) in
  let! d2 := s64 (len - to) in
  let count := Z.min d1 d2 in
  when (0 <? count) (
    check_detached (vbuf iio) ;;
    let es := size_of t in
    let boff := voff iio in
    let! p := s64 (es * from) in
    let! from_byte_idx := s64 (boff + p) in
    let! q := s64 (es * to) in
    let! to_byte_idx := s64 (boff + q) in
    let! count_bytes := s64 (es * count) in
    let! bs := mem_read (vbuf iio) from_byte_idx count_bytes (Some vi) in
    mem_write (vbuf iio) to_byte_idx bs (Some vi)).

(** TypedArray_prototype_fill, 442-505: [for (; k < final; k ++) rjs_set_index];
    the value is a Number or BigInt already, so no user code runs in the loop. *)
Fixpoint fill_loop (n : nat) (vi : nat) (k : Z) (v : Z) : M done :=
  match n with
  | O => ret tt
  | S n' => element_set vi (dbl_of_int k) (Val (ret v)) ;; fill_loop n' vi (k + 1) v
  end.
Definition fill (vi : nat) (value start end_ : arg) : M done :=
  let! (iio, t) := valid_typed_array vi in
  let len := vcount iio in
  let! v := to_value value in
  let! rel_start := to_integer start in
  let! k := relative rel_start len in
  let! rel_end := to_end end_ len in
  let! final := relative rel_end len in
  check_detached (vbuf iio) ;;
  fill_loop (Z.to_nat (final - k)) vi k v.

(** memcpy between two buffers: the effect of a temporary copy; overlapping
    operands are recorded. *)
Definition memcpy (tb : nat) (tpos : Z) (to_ : option nat) (sb : nat) (spos : Z) (so : option nat) (n : Z) : M done :=
  let! tk := block_of tb in
  let! sk := block_of sb in
  let! bs := mem_read sb spos n so in
  mem_write tb tpos bs to_ ;;
  fun s => Ret tt (flag (Nat.eqb tk sk && (0 <? n) && (tpos <? spos + n) && (spos <? tpos + n)) false s).

(** rjs_array_buffer_lock of both buffers: a shared block is locked with a
    default (non-recursive) pthread mutex. *)
Definition lock_both (a b : nat) : M done :=
  let! ka := block_of a in
  let! kb := block_of b in
  fun s => Ret tt (flag false (Nat.eqb ka kb && match nth_error (blocks s) ka with
                                                | Some x => bshared x | None => false end) s).

(** [slen + offset > tlen] in doubles *)
Definition offset_too_big (offset : num) (slen tlen : Z) : bool :=
  match offset with
  | PInf => true
  | NInf => false
  | Fin o => tlen <? rnd (slen + o)
  end.

(** set_typed_array_from_typed_array, 1358-1450 *)
Definition set_from_typed_array (ti si : nat) (offset : num) (ok : bool) : M done :=
  let! (tiio, ttype) := the_array ti in
  check_detached (vbuf tiio) ;;
  let! (siio, stype) := the_array si in
  check_detached (vbuf siio) ;;
  let tesize := size_of ttype in
  let sesize := size_of stype in
  let tlen := vcount tiio in
  let slen := vcount siio in
  throw_if (offset_too_big offset slen tlen) ;;
  throw_if (negb (Bool.eqb (content_is_big_int ttype) (content_is_big_int stype))) ;;
  let! tk := block_of (vbuf tiio) in
  let! sk := block_of (vbuf siio) in
  let! (sbuf, sbidx, so) :=
    (if Nat.eqb sk tk
     then let! nab := clone_array_buffer (vbuf siio) (voff siio) (vbytes siio) ok (Some si) in
          ret (nab, 0, None)
     else ret (vbuf siio, voff siio, Some si)) in
  match offset with
  | Fin o =>
      let tbidx := u64 (u64 (u64 o * tesize) + voff tiio) in
      let limit := u64 (tbidx + u64 (tesize * slen)) in
      if etype_eqb stype ttype
      then lock_both sbuf (vbuf tiio) ;;
           memcpy (vbuf tiio) tbidx (Some ti) sbuf sbidx so (u64 (limit - tbidx))
      else convert_elements (Z.to_nat ((limit - tbidx + tesize - 1) / tesize))
             sbuf stype sbidx so (vbuf tiio) ttype tbidx (Some ti)
  | _ => ub
  end.

(** set_typed_array_from_array_like, 1453-1496: each element is fetched (user
    code) and stored; [len] is the length property. *)
Fixpoint set_all (vi : nat) (k : Z) (toff : Z) (vs : list arg) : M done :=
  match vs with
  | [] => ret tt
  | v :: t => element_set vi (dbl_of_int (u64 (k + toff))) v ;; set_all vi (k + 1) toff t
  end.
Definition set_from_list (ti : nat) (offset : num) (pre : arg) (vs : list arg) : M done :=
  let! (tiio, t) := the_array ti in
  check_detached (vbuf tiio) ;;
  let tlen := vcount tiio in
  user pre ;;
  throw_if (offset_too_big offset (Z.of_nat (length vs)) tlen) ;;
  match offset with
  | Fin o => set_all ti 0 (u64 o) vs
  | _ => ub
  end.

(** TypedArray_prototype_set, 1499-1535 *)
Definition negative (n : num) : bool :=
  match n with NInf => true | Fin z => z <? 0 | PInf => false end.
Definition ta_set (ti : nat) (offset : arg) (src : M num -> M done) : M done :=
  the_array ti ;;
  src (let! o := to_integer offset in throw_if (negative o) ;; ret o).
Definition set_typed (ti si : nat) (offset : arg) (ok : bool) : M done :=
  ta_set ti offset (fun m => let! o := m in set_from_typed_array ti si o ok).
Definition set_list (ti : nat) (offset pre : arg) (vs : list arg) : M done :=
  ta_set ti offset (fun m => let! o := m in set_from_list ti o pre vs).

(** typed_array_species_create, 555-585, and typed_array_create, 68-88: [species]
    is the whole construction, user code that gives the number of some view.
    [count] is the requested length. *)
Definition species_create (vi : nat) (species : arg) (count : Z) : M nat :=
  let! (iio, t) := the_array vi in
  let! n := user species in
  let ni := Z.to_nat n in
  fun s => match nth_error (views s) ni with
           | None => Thr s
           | Some _ =>
               (let! (niio, nt) := valid_typed_array ni in
                throw_if (vcount niio <? count) ;;
                throw_if (negb (Bool.eqb (content_is_big_int t) (content_is_big_int nt))) ;;
                ret ni) s
           end.

(** TypedArray_prototype_slice, 1538-1626 *)
Fixpoint slice_loop (n : nat) (vi ni : nat) (k i : Z) : M done :=
  match n with
  | O => ret tt
  | S n' =>
      let! x := element_get vi (dbl_of_int k) in
      element_set ni (dbl_of_int i) (match x with None => Undef | Some v => Val (ret v) end) ;;
      slice_loop n' vi ni (k + 1) (i + 1)
  end.
Definition slice (vi : nat) (start end_ species : arg) : M Z :=
  let! (siio, stype) := valid_typed_array vi in
  let len := vcount siio in
  let! rel_start := to_integer start in
  let! k := relative rel_start len in
  let! rel_end := to_end end_ len in
  let! final := relative rel_end len in
  let! d := s64 (final - k) in
  let count := Z.max 0 d in
  let! ni := species_create vi species count in
  when (0 <? count) (
    check_detached (vbuf siio) ;;
    let! (tiio, ttype) := the_array ni in
    if etype_eqb stype ttype
    then let es := size_of stype in
         lock_both (vbuf siio) (vbuf tiio) ;;
         memcpy (vbuf tiio) (voff tiio) (Some ni)
                (vbuf siio) (u64 (voff siio + u64 (k * es))) (Some vi) (u64 (count * es))
    else slice_loop (Z.to_nat (final - k)) vi ni k 0) ;;
  ret (Z.of_nat ni).

(** ** Programs *)

(** An operation.  A view or buffer number that does not exist is not an object
    the program can have: the operation throws. *)
Inductive op :=
| ONewBuffer (shared ok : bool)            (* length, prototype *)
| OAlias (b : nat)
| ODetach (b : nat)
| ONewDataView (b : nat)                   (* offset, length, prototype *)
| OGetView (v : nat) (t : etype) (le : bool)      (* index *)
| OSetView (v : nat) (t : etype) (le : bool)      (* index, value *)
| ONewLength (t : etype) (ok : bool)       (* length, prototype *)
| ONewOnBuffer (t : etype) (b : nat)       (* prototype, offset, length *)
| ONewFrom (t : etype) (v : nat) (ok : bool)      (* prototype *)
| ONewList (t : etype) (ok : bool)         (* prototype, iteration, values *)
| OGet (v : nat) (n : Z)
| OSet (v : nat) (n : Z)                   (* value *)
| OCopyWithin (v : nat)                    (* target, start, end *)
| OFill (v : nat)                          (* value, start, end *)
| OSetTyped (v w : nat) (ok : bool)        (* offset *)
| OSetList (v : nat)                       (* offset, length, values *)
| OSlice (v : nat).                        (* start, end, species *)

Definition has_buf (b : nat) (m : M done) : M done :=
  fun s => match nth_error (bufs s) b with Some _ => m s | None => Thr s end.
Definition has_view (v : nat) (m : M done) : M done :=
  fun s => match nth_error (views s) v with Some _ => m s | None => Thr s end.

Definition step (o : op) (a : list arg) : M done :=
  let a0 := arg_at a 0 in let a1 := arg_at a 1 in let a2 := arg_at a 2 in
  match o with
  | ONewBuffer shared ok =>
      let! len := to_index a0 in allocate_array_buffer (user a1) len shared ok ;; ret tt
  | OAlias b => has_buf b (alias_array_buffer b ;; ret tt)
  | ODetach b => has_buf b (detach_array_buffer b)
  | ONewDataView b => has_buf b (data_view_constructor b a0 a1 a2 ;; ret tt)
  | OGetView v t le => has_view v (get_view_value v a0 le t ;; ret tt)
  | OSetView v t le => has_view v (set_view_value v a0 le t a1 ;; ret tt)
  | ONewLength t ok => typed_array_of_length t a0 a1 ok ;; ret tt
  | ONewOnBuffer t b => has_buf b (typed_array_of_buffer t b a0 a1 a2 ;; ret tt)
  | ONewFrom t v ok => has_view v (typed_array_of_typed_array t v a0 ok ;; ret tt)
  | ONewList t ok => typed_array_of_list t a0 a1 (skipn 2 a) ok ;; ret tt
  | OGet v n => has_view v (element_get v n ;; ret tt)
  | OSet v n => has_view v (element_set v n a0)
  | OCopyWithin v => has_view v (copy_within v a0 a1 a2)
  | OFill v => has_view v (fill v a0 a1 a2)
  | OSetTyped v w ok => has_view v (has_view w (set_typed v w a0 ok))
  | OSetList v => has_view v (set_list v a0 a1 (skipn 2 a))
  | OSlice v => has_view v (slice v a0 a1 a2 ;; ret tt)
  end.

(** An action: an operation and its arguments.  An argument is undefined or user
    code (a program) that ends with a number or an exception. *)
Inductive act := Do (o : op) (args : list (option (list act * option Z))).

(** User code catches the exceptions of its own operations. *)
Definition catch (m : M done) : M done :=
  fun s => match m s with Ret _ s' => Ret tt s' | Thr s' => Ret tt s' | Ub => Ub end.

Fixpoint run_act (a : act) : M done :=
  match a with
  | Do o args =>
      catch (step o (map (fun x => match x with
                                   | None => Undef
                                   | Some (p, r) =>
                                       Val (fold_right (fun a m => run_act a ;; m) (ret tt) p ;;
                                            match r with Some z => ret z | None => throw end)
                                   end) args))
  end.
Definition run (p : list act) : M done := fold_right (fun a m => run_act a ;; m) (ret tt) p.
End ENC.
