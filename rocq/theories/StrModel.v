(** Model of the string primitives of src/lib/rjs_string.c and of the String
    methods built on them (src/lib/rjs_string_object_inc.c).

    A string is a [list Z] of UTF-16 code units (RJS_UChar, 0..65535).
    A pointer into a character buffer is an index ([nat]); reading outside the
    buffer is the distinct outcome [SUB], so is a failed assert.
    Not modelled: the GC, conversion of the arguments to strings/numbers (the
    models take the converted values), allocation failure (except in [repeat]). *)
From Coq Require Import List ZArith Bool Lia.
Import ListNotations.
Local Open Scope Z_scope.

Definition str := list Z.

(** Outcome of an operation: value, JavaScript exception, undefined behaviour
    (out-of-bounds access, failed assert, invalid conversion). *)
Inductive sres (A : Type) := SOk (a : A) | SThrow | SUB.
Arguments SOk {A}. Arguments SThrow {A}. Arguments SUB {A}.

Definition sbind {A B} (x : sres A) (f : A -> sres B) : sres B :=
  match x with SOk a => f a | SThrow => SThrow | SUB => SUB end.
Notation "'do' x <- m ; k" := (sbind m (fun x => k)) (at level 200, x name, m at level 100, k at level 200).

(** Result of ToIntegerOrInfinity (include/ratjs/rjs_operation.h:704-733). *)
Inductive num := NInf | Fin (z : Z) | PInf.

Definition len (s : str) : Z := Z.of_nat (length s).

(** RJS_CLAMP(n, min, max) = RJS_MIN(RJS_MAX(n, min), max)
    include/ratjs/rjs_macros.h:50-60, on the doubles n, min, max. *)
Definition clamp (n : num) (lo hi : Z) : Z :=
  match n with
  | NInf => Z.min lo hi
  | Fin z => Z.min (Z.max z lo) hi
  | PInf => hi
  end.

(** Conversion of a double to size_t; out of range is undefined behaviour. *)
Definition to_size (z : Z) : sres nat :=
  if (0 <=? z) && (z <? 2 ^ 64) then SOk (Z.to_nat z) else SUB.

(** rjs_string_substr, rjs_string.c:973-993.  The assert at 983 is [SUB]. *)
Definition substr (s : str) (start stop : nat) : sres str :=
  if (stop <=? length s)%nat && (start <=? stop)%nat
  then SOk (firstn (stop - start) (skipn start s))
  else SUB.

(** rjs_string_concat, rjs_string.c:1004-1040. *)
Definition concat (s1 s2 : str) : str :=
  match s1 with
  | [] => s2
  | _ => match s2 with [] => s1 | _ => s1 ++ s2 end
  end.

Inductive cmp := EQUAL | LESS | GREATER.

(** rjs_string_compare, rjs_string.c:1053-1089: loop 1068-1081, tail 1083-1089. *)
Fixpoint compare (c1 c2 : str) : cmp :=
  match c1, c2 with
  | x :: c1', y :: c2' =>
      let r := x - y in
      if r <? 0 then LESS else if 0 <? r then GREATER else compare c1' c2'
  | [], [] => EQUAL
  | _ :: _, [] => GREATER
  | [], _ :: _ => LESS
  end.

(** The content comparison of hash_op_string_equal, rjs_string.c:898-917
    (pointer and flag shortcuts are in KeyModel.v). *)
Fixpoint uchars_equal (c1 c2 : str) : bool :=
  match c1, c2 with
  | x :: c1', y :: c2' => if x =? y then uchars_equal c1' c2' else false
  | _, _ => true
  end.
Definition content_equal (s1 s2 : str) : bool :=
  if Nat.eqb (length s1) (length s2) then uchars_equal s1 s2 else false.

(** Unicode White_Space property as answered by ICU's u_isUWhiteSpace. *)
Definition u_isUWhiteSpace (c : Z) : bool :=
  ((9 <=? c) && (c <=? 13)) || (c =? 0x20) || (c =? 0x85) || (c =? 0xa0) ||
  (c =? 0x1680) || ((0x2000 <=? c) && (c <=? 0x200a)) || (c =? 0x2028) ||
  (c =? 0x2029) || (c =? 0x202f) || (c =? 0x205f) || (c =? 0x3000).

(** rjs_uchar_is_white_space, rjs_uchar_icu_opt.c:34-38 (default build, ICU). *)
Definition is_white_space (c : Z) : bool := u_isUWhiteSpace c || (c =? 0xfeff).

(** rjs_uchar_is_digit, include/rjs_uchar.h:56-60. *)
Definition is_digit (c : Z) : bool := (48 <=? c) && (c <=? 57).

(** rjs_string_trim, rjs_string.c:1100-1142: first loop 1122-1128. *)
Fixpoint trim_start_loop (ws : Z -> bool) (fuel : nat) (s : str) (b e : nat) : sres nat :=
  match fuel with
  | O => SOk b
  | S f => if (b <? e)%nat
           then match nth_error s b with
                | None => SUB
                | Some c => if ws c then trim_start_loop ws f s (S b) e else SOk b
                end
           else SOk b
  end.

(** second loop 1130-1136 *)
Fixpoint trim_end_loop (ws : Z -> bool) (fuel : nat) (s : str) (b e : nat) : sres nat :=
  match fuel with
  | O => SOk e
  | S f => if (b <? e)%nat
           then match nth_error s (e - 1) with
                | None => SUB
                | Some c => if ws c then trim_end_loop ws f s b (e - 1) else SOk e
                end
           else SOk e
  end.

(** rjs_string_trim for the flags RJS_STRING_TRIM_START / _END. *)
Definition trim (ws : Z -> bool) (at_start at_end : bool) (s : str) : sres str :=
  let l := length s in
  do b <- (if at_start then trim_start_loop ws l s 0 l else SOk 0%nat);
  do e <- (if at_end then trim_end_loop ws l s b l else SOk l);
  substr s b e.

(** rjs_to_length, include/ratjs/rjs_operation.h:1050-1068 *)
Definition to_length (n : num) : Z :=
  match n with
  | NInf => 0
  | Fin z => if z <=? 0 then 0 else Z.min z (2 ^ 53 - 1)
  | PInf => 2 ^ 53 - 1
  end.

(** rjs_string_pad, rjs_string.c:1153-1231: filler loop 1205-1216.  [n] is the
    number of units still to write; every pass writes at least one. *)
Fixpoint pad_loop (fuel : nat) (p : str) (n : nat) : str :=
  match fuel with
  | O => []
  | S f => if (0 <? n)%nat
           then if (length p <=? n)%nat
                then p ++ pad_loop f p (n - length p)
                else firstn n p
           else []
  end.

(** rjs_string_pad; [fill] = None is the undefined filler (a space). *)
Definition pad (at_start : bool) (s : str) (max_len : num) (fill : option str) : str :=
  let ilen := to_length max_len in
  if ilen <? len s then s
  else
    let p := match fill with None => [32] | Some p => p end in
    match p with
    | [] => s
    | _ => let n := Z.to_nat (ilen - len s) in
           if at_start then pad_loop n p n ++ s else s ++ pad_loop n p n
    end.

(** rjs_string_index_of_uchar, rjs_string.c:1241-1260 *)
Fixpoint index_of_uchar_loop (fuel : nat) (s : str) (uc : Z) (c : nat) : sres Z :=
  match fuel with
  | O => SOk (-1)
  | S f => if (c <? length s)%nat
           then match nth_error s c with
                | None => SUB
                | Some x => if x =? uc then SOk (Z.of_nat c) else index_of_uchar_loop f s uc (S c)
                end
           else SOk (-1)
  end.
Definition index_of_uchar (s : str) (uc : Z) (pos : nat) : sres Z :=
  index_of_uchar_loop (length s) s uc pos.

(** Inner comparison loop of rjs_string_index_of (1297-1305) and
    rjs_string_last_index_of (1352-1360): compare [sub] with the text at [t]. *)
Fixpoint match_at (sub s : str) (t : nat) : sres bool :=
  match sub with
  | [] => SOk true
  | x :: sub' => match nth_error s t with
                 | None => SUB
                 | Some y => if x =? y then match_at sub' s (S t) else SOk false
                 end
  end.

(** Outer loop of rjs_string_index_of, rjs_string.c:1292-1311; [n] counts the
    positions c..e that are left. *)
Fixpoint scan_up (n : nat) (sub s : str) (c : nat) : sres Z :=
  match n with
  | O => SOk (-1)
  | S n' => do m <- match_at sub s c;
            if m : bool then SOk (Z.of_nat c) else scan_up n' sub s (S c)
  end.

(** rjs_string_index_of, rjs_string.c:1271-1314 *)
Definition index_of (s sub : str) (pos : nat) : sres Z :=
  let l := length s in
  let sl := length sub in
  if (sl =? 0)%nat && (pos <=? l)%nat then SOk (Z.of_nat pos)
  else if (l <? pos)%nat || (l - pos <? sl)%nat then SOk (-1)
  else scan_up (S (l - sl) - pos) sub s pos.

(** Outer loop of rjs_string_last_index_of, rjs_string.c:1347-1366, from [c]
    down to the start of the buffer. *)
Fixpoint scan_down (sub s : str) (c : nat) : sres Z :=
  do m <- match_at sub s c;
  if m : bool then SOk (Z.of_nat c)
  else match c with O => SOk (-1) | S c' => scan_down sub s c' end.

(** rjs_string_last_index_of, rjs_string.c:1325-1369 *)
Definition last_index_of (s sub : str) (pos : nat) : sres Z :=
  let l := length s in
  let sl := length sub in
  if (l <? sl)%nat then SOk (-1)
  else let pos := Nat.min pos (l - sl) in
       if (sl =? 0)%nat then SOk (Z.of_nat pos) else scan_down sub s pos.

(** String.prototype.indexOf, rjs_string_object_inc.c:549-584 *)
Definition js_indexOf (s sub : str) (posn : num) : sres Z :=
  do start <- to_size (clamp posn 0 (len s)); index_of s sub start.

(** String.prototype.includes, rjs_string_object_inc.c:501-546 *)
Definition js_includes (s sub : str) (posn : num) : sres bool :=
  do start <- to_size (clamp posn 0 (len s));
  do i <- index_of s sub start;
  SOk (negb (i =? -1)).

(** String.prototype.lastIndexOf, rjs_string_object_inc.c:587-631.  [posn] is
    the converted position, PInf when it was NaN (line 609).  The upper clamp
    bound len - slen can be negative: converting that double to size_t (620)
    is undefined behaviour. *)
Definition js_lastIndexOf (s sub : str) (posn : num) : sres Z :=
  do start <- to_size (clamp posn 0 (len s - len sub)); last_index_of s sub start.

(** String.prototype.startsWith, rjs_string_object_inc.c:1332-1394 *)
Definition js_startsWith (s sub : str) (posn : num) : sres bool :=
  do start <- to_size (clamp posn 0 (len s));
  if (length sub =? 0)%nat then SOk true
  else let stop := (start + length sub)%nat in
       if (length s <? stop)%nat then SOk false
       else do x <- substr s start stop; SOk (content_equal x sub).

(** String.prototype.endsWith, rjs_string_object_inc.c:437-498; [posn] = None
    when the argument is undefined. *)
Definition js_endsWith (s sub : str) (posn : option num) : sres bool :=
  let p := match posn with None => Fin (len s) | Some p => p end in
  do stop <- to_size (clamp p 0 (len s));
  if (length sub =? 0)%nat then SOk true
  else if (stop <? length sub)%nat then SOk false
  else do x <- substr s (stop - length sub) stop; SOk (content_equal x sub).

(** String.prototype.at, rjs_string_object_inc.c:254-291; None = undefined *)
Definition js_at (s : str) (n : num) : sres (option str) :=
  let k := match n with Fin z => Fin (if 0 <=? z then z else len s + z) | x => x end in
  match k with
  | Fin z => if (z <? 0) || (len s <=? z) then SOk None
             else do x <- substr s (Z.to_nat z) (Z.to_nat (z + 1)); SOk (Some x)
  | _ => SOk None
  end.

(** String.prototype.charAt, rjs_string_object_inc.c:294-325 *)
Definition js_charAt (s : str) (pos : num) : sres str :=
  match pos with
  | Fin z => if (z <? 0) || (len s <=? z) then SOk [] else substr s (Z.to_nat z) (Z.to_nat (z + 1))
  | _ => SOk []
  end.

(** String.prototype.charCodeAt, rjs_string_object_inc.c:328-362; None = NaN *)
Definition js_charCodeAt (s : str) (pos : num) : sres (option Z) :=
  match pos with
  | Fin z => if (z <? 0) || (len s <=? z) then SOk None
             else match nth_error s (Z.to_nat z) with None => SUB | Some c => SOk (Some c) end
  | _ => SOk None
  end.

(** rjs_uchar_is_leading_surrogate / trailing, rjs_surrogate_pair_to_uc,
    rjs_uc_to_surrogate_pair: include/rjs_uchar.h:333-385 *)
Definition is_leading (c : Z) : bool := (0xd800 <=? c) && (c <=? 0xdbff).
Definition is_trailing (c : Z) : bool := (0xdc00 <=? c) && (c <=? 0xdfff).
Definition pair_to_uc (l t : Z) : Z := Z.lor (Z.shiftl (l - 0xd800) 10) (t - 0xdc00) + 0x10000.
Definition uc_to_pair (c : Z) : Z * Z :=
  let v := c - 0x10000 in
  (Z.shiftr v 10 + 0xd800, Z.land v 0x3ff + 0xdc00).

(** rjs_string_get_uc, rjs_string.c:98-121 *)
Definition get_uc (s : str) (idx : nat) : sres Z :=
  match nth_error s idx with
  | None => SUB
  | Some c1 =>
      if negb (is_leading c1) || Nat.eqb idx (length s - 1) then SOk c1
      else match nth_error s (S idx) with
           | None => SUB
           | Some c2 => if is_trailing c2 then SOk (pair_to_uc c1 c2) else SOk c1
           end
  end.

(** String.prototype.codePointAt, rjs_string_object_inc.c:365-399; None = undefined *)
Definition js_codePointAt (s : str) (pos : num) : sres (option Z) :=
  match pos with
  | Fin z => if (z <? 0) || (len s <=? z) then SOk None
             else do c <- get_uc s (Z.to_nat z); SOk (Some c)
  | _ => SOk None
  end.

(** rjs_uchar_buffer_append_uc, rjs_uchar_buffer.c:58-81 *)
Definition append_uc (ucb : str) (uc : Z) : str :=
  if 0xffff <? uc then let '(l, t) := uc_to_pair uc in ucb ++ [l; t] else ucb ++ [uc].

(** String.fromCodePoint, rjs_string_object_inc.c:96-128.  The arguments are
    numbers; None is a number that is not integral. *)
Fixpoint from_code_points (ucb : str) (args : list (option Z)) : sres str :=
  match args with
  | [] => SOk ucb
  | None :: _ => SThrow
  | Some n :: r => if (n <? 0) || (0x10ffff <? n) then SThrow
                   else from_code_points (append_uc ucb n) r
  end.
Definition js_fromCodePoint (args : list (option Z)) : sres str := from_code_points [] args.

(** %StringIteratorPrototype%.next, rjs_string_object_inc.c:1828-1875: the
    piece returned and the new position; None = done. *)
Definition iter_next (s : str) (pos : nat) : sres (option (str * nat)) :=
  if (length s <=? pos)%nat then SOk None
  else match nth_error s pos with
       | None => SUB
       | Some c =>
           do n <- (if is_leading c then
                      if (pos <? length s - 1)%nat then
                        match nth_error s (S pos) with
                        | None => SUB
                        | Some d => SOk (if is_trailing d then 2%nat else 1%nat)
                        end
                      else SOk 1%nat
                    else SOk 1%nat);
           do sub <- substr s pos (pos + n)%nat;
           SOk (Some (sub, (pos + n)%nat))
       end.

(** A for-of loop over the iterator: every piece until done (fuel: one step
    per code unit is enough, running out is [SUB]). *)
Fixpoint iter_all (fuel : nat) (s : str) (pos : nat) : sres (list str) :=
  match fuel with
  | O => SUB
  | S f => do r <- iter_next s pos;
           match r with
           | None => SOk []
           | Some (p, pos') => do t <- iter_all f s pos'; SOk (p :: t)
           end
  end.
Definition js_iterate (s : str) : sres (list str) := iter_all (S (length s)) s 0.

(** one bound of String.prototype.slice, rjs_string_object_inc.c:1182-1200 *)
Definition slice_bound (n : num) (l : Z) : Z :=
  match n with
  | NInf => 0
  | Fin z => if z <? 0 then Z.max (l + z) 0 else Z.min z l
  | PInf => l
  end.

(** String.prototype.slice, rjs_string_object_inc.c:1163-1212; [stop] = None
    when the end argument is undefined. *)
Definition js_slice (s : str) (start : num) (stop : option num) : sres str :=
  let l := len s in
  let from := slice_bound start l in
  let to_ := slice_bound (match stop with None => Fin l | Some e => e end) l in
  if to_ <=? from then SOk [] else substr s (Z.to_nat from) (Z.to_nat to_).

(** String.prototype.substring, rjs_string_object_inc.c:1397-1434 *)
Definition js_substring (s : str) (start : num) (stop : option num) : sres str :=
  let l := len s in
  let e := match stop with None => Fin l | Some e => e end in
  let fs := clamp start 0 l in
  let fe := clamp e 0 l in
  substr s (Z.to_nat (Z.min fs fe)) (Z.to_nat (Z.max fs fe)).

Fixpoint copies (n : nat) (s : str) : str :=
  match n with O => [] | S n' => s ++ copies n' s end.

(** String.prototype.repeat, rjs_string_object_inc.c:844-893, and the
    allocation in rjs_string_from_uchars, rjs_string.c:228-257.  [mem] is the
    largest allocation (bytes) malloc grants.  size_t arithmetic wraps at
    2^64: line 871 (rc * slen) and rjs_string.c:247 (2 * len).  The copy loop
    880-883 writes rc * slen units; past the allocated ones it is [SUB].  A
    count that is no size_t (line 865) is [SUB]; so is length 2^64-1, which
    rjs_string_from_uchars takes for "0-terminated" with a NULL buffer (234). *)
Definition js_repeat (mem : Z) (s : str) (count : num) : sres str :=
  match count with
  | NInf | PInf => SThrow
  | Fin n =>
      if n <? 0 then SThrow
      else if 2 ^ 64 <=? n then SUB
      else if n =? 0 then SOk []
      else
        let total := n * len s in
        let rlen := total mod 2 ^ 64 in
        if rlen =? 2 ^ 64 - 1 then SUB
        else
          let bytes := 2 * rlen mod 2 ^ 64 in
          if mem <? bytes then SThrow
          else if bytes <? 2 * total then SUB
          else SOk (copies (Z.to_nat n) s)
  end.

(** String.prototype.split with a separator that has no Symbol.split method,
    rjs_string_object_inc.c:1215-1329: main loop 1293-1312.  [n] is the number
    of pieces stored so far, [lim] the limit (uint32). *)
Fixpoint split_loop (fuel : nat) (s ss : str) (start : nat) (idx : Z) (n lim : Z) : sres (list str) :=
  if idx =? -1 then
    do sub <- substr s start (length s); SOk [sub]
  else
    match fuel with
    | O => SUB
    | S f =>
        do sub <- substr s start (Z.to_nat idx);
        let n := n + 1 in
        if n =? lim then SOk [sub]
        else
          let start := (Z.to_nat idx + length ss)%nat in
          do idx <- index_of s ss start;
          do r <- split_loop f s ss start idx n lim;
          SOk (sub :: r)
    end.

(** the empty-separator loop 1268-1280: one piece per unit *)
Fixpoint split_units (n : nat) (s : str) (i : nat) : sres (list str) :=
  match n with
  | O => SOk []
  | S n' => do sub <- substr s i (S i); do r <- split_units n' s (S i); SOk (sub :: r)
  end.

(** [ss] = None: the separator is undefined.  [lim]: 0xffffffff if undefined. *)
Definition js_split (s : str) (ss : option str) (lim : Z) : sres (list str) :=
  if lim =? 0 then SOk []
  else match ss with
       | None => SOk [s]
       | Some ss =>
           if (length ss =? 0)%nat then split_units (Z.to_nat (Z.min lim (len s))) s 0
           else if (length s =? 0)%nat then SOk [s]
           else do idx <- index_of s ss 0;
                split_loop (length s) s ss 0 idx 0 lim
       end.
