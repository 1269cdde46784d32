(** Property theorems C39 (search), C40 (comparison), C41 (trim, pad), C51
    (repeat), C52 (split), C53 (code points) and C54 (slice, substring, at). *)
From Coq Require Import List ZArith Bool Lia.
Import ListNotations.
From Verif Require Import StrModel StrSpec StrProofs.
Local Open Scope Z_scope.

(** The position 0..l a position argument stands for (below 0 is 0, above l is
    l). *)
Definition pos_in (posn : num) (l : Z) : Z :=
  match posn with NInf => 0 | PInf => l | Fin z => Z.max 0 (Z.min z l) end.

Lemma pos_in_clamp posn (s : str) : clamp posn 0 (len s) = pos_in posn (len s).
Proof. destruct posn; cbn [clamp pos_in]; unfold len; lia. Qed.

(** a string whose length is a size_t *)
Definition sized (s : str) : Prop := Z.of_nat (length s) < 2 ^ 64.

(** ** C39 *)

Theorem C39_index_of : forall s sub pos,
  exists r, index_of s sub pos = SOk r /\ first_from sub s pos r.
Proof. exact index_of_spec. Qed.
Print Assumptions C39_index_of.

Theorem C39_last_index_of : forall s sub pos,
  exists r, last_index_of s sub pos = SOk r /\ last_upto sub s pos r.
Proof. exact last_index_of_spec. Qed.
Print Assumptions C39_last_index_of.

Theorem C39_js_indexOf : forall s sub posn, sized s ->
  exists r, js_indexOf s sub posn = SOk r /\ first_from sub s (Z.to_nat (pos_in posn (len s))) r.
Proof. intros s sub posn H. rewrite <- pos_in_clamp. exact (js_indexOf_spec s sub posn H). Qed.
Print Assumptions C39_js_indexOf.

Theorem C39_js_includes : forall s sub posn, sized s ->
  exists r, js_includes s sub posn = SOk r /\
    (r = true <-> exists i, (Z.to_nat (pos_in posn (len s)) <= i)%nat /\ occurs sub s i).
Proof. intros s sub posn H. rewrite <- pos_in_clamp. exact (js_includes_spec s sub posn H). Qed.
Print Assumptions C39_js_includes.

Theorem C39_js_startsWith : forall s sub posn, sized s ->
  exists r, js_startsWith s sub posn = SOk r /\
    (r = true <-> occurs sub s (Z.to_nat (pos_in posn (len s)))).
Proof. intros s sub posn H. rewrite <- pos_in_clamp. exact (js_startsWith_spec s sub posn H). Qed.
Print Assumptions C39_js_startsWith.

Theorem C39_js_endsWith : forall s sub posn, sized s ->
  exists r, js_endsWith s sub posn = SOk r /\
    (r = true <-> exists i,
       (i + length sub = match posn with None => length s | Some p => Z.to_nat (pos_in p (len s)) end)%nat /\
       occurs sub s i).
Proof.
  intros s sub posn H. pose proof (js_endsWith_spec s sub posn H) as K.
  destruct posn; [rewrite <- pos_in_clamp|]; exact K.
Qed.
Print Assumptions C39_js_endsWith.

(** lastIndexOf is right when the pattern is no longer than the text … *)
Theorem C39_js_lastIndexOf_guarded : forall s sub posn, sized s -> (length sub <= length s)%nat ->
  exists r, js_lastIndexOf s sub posn = SOk r /\ last_upto sub s (Z.to_nat (pos_in posn (len s))) r.
Proof.
  intros s sub posn H L. rewrite <- pos_in_clamp. apply js_lastIndexOf_spec; [exact H|]. unfold len. lia.
Qed.
Print Assumptions C39_js_lastIndexOf_guarded.

(** … and otherwise converts a negative double to size_t, which C leaves
    undefined. *)
Theorem C39_js_lastIndexOf_undefined : forall s sub posn, (length s < length sub)%nat ->
  js_lastIndexOf s sub posn = SUB.
Proof. intros s sub posn L. apply js_lastIndexOf_ub. unfold len. lia. Qed.
Print Assumptions C39_js_lastIndexOf_undefined.

Theorem C39_js_lastIndexOf_refuted : exists s sub posn, sized s /\
  ~ exists r, js_lastIndexOf s sub posn = SOk r /\ last_upto sub s (Z.to_nat (pos_in posn (len s))) r.
Proof.
  exists [97], [97; 98], PInf. split; [reflexivity|]. intros (r & E & _).
  rewrite C39_js_lastIndexOf_undefined in E; [discriminate|cbn; lia].
Qed.
Print Assumptions C39_js_lastIndexOf_refuted.

Example C39_witness :
  js_indexOf [97; 98; 97; 98; 97] [98; 97] (Fin 2) = SOk 3 /\
  js_lastIndexOf [97; 98; 97; 98; 97] [98; 97] PInf = SOk 3 /\
  js_lastIndexOf [97; 98; 97; 98; 97] [98; 97] (Fin 2) = SOk 1 /\
  js_indexOf [97; 98] [98; 97] NInf = SOk (-1) /\
  js_startsWith [97; 98; 97] [98; 97] (Fin 1) = SOk true /\
  js_endsWith [97; 98; 97] [97; 98] (Some (Fin 2)) = SOk true /\ sized [97; 98; 97; 98; 97].
Proof. vm_compute. repeat split; reflexivity. Qed.

(** ** C40 *)

Theorem C40_compare_less : forall a b, compare a b = LESS <-> lex_lt a b.
Proof. exact compare_less. Qed.
Print Assumptions C40_compare_less.

Theorem C40_compare_greater : forall a b, compare a b = GREATER <-> lex_lt b a.
Proof. exact compare_greater. Qed.
Print Assumptions C40_compare_greater.

Theorem C40_compare_equal : forall a b, compare a b = EQUAL <-> a = b.
Proof. exact compare_equal. Qed.
Print Assumptions C40_compare_equal.

Theorem C40_content_equal : forall a b, content_equal a b = true <-> a = b.
Proof. exact content_equal_spec. Qed.
Print Assumptions C40_content_equal.

Theorem C40_strict_total_order :
  (forall a, compare a a <> LESS) /\
  (forall a b c, compare a b = LESS -> compare b c = LESS -> compare a c = LESS) /\
  (forall a b, compare a b = LESS \/ a = b \/ compare b a = LESS).
Proof.
  split; [|split].
  - intros a H. apply compare_less in H. exact (lex_irrefl a H).
  - intros a b c H1 H2. apply compare_less in H1, H2. apply compare_less. exact (lex_trans a b c H1 H2).
  - intros a b. rewrite !compare_less. apply lex_total.
Qed.
Print Assumptions C40_strict_total_order.

Example C40_witness :
  compare [97; 98] [97; 98; 0] = LESS /\ compare [0xffff] [0xd83d; 0xde00] = GREATER /\
  compare [97; 66] [97; 98] = LESS /\ content_equal [97; 66] [97; 66] = true.
Proof. vm_compute. repeat split; reflexivity. Qed.

(** ** C41 *)

(** What the code trims, exactly: ECMAScript white space and also U+0085. *)
Theorem C41_trim_actual : forall at_start at_end s,
  exists r, trim is_white_space at_start at_end s = SOk r /\
    trimmed (fun c => es_space c \/ c = 0x85) at_start at_end s r.
Proof.
  intros a b s. destruct (trim_spec is_white_space a b s) as (r & E & T). exists r. split; [exact E|].
  refine (trimmed_ext _ _ _ _ _ _ _ T). intros c _. apply white_space_spec.
Qed.
Print Assumptions C41_trim_actual.

Theorem C41_trim_guarded : forall at_start at_end s, ~ In 0x85 s ->
  exists r, trim is_white_space at_start at_end s = SOk r /\ trimmed es_space at_start at_end s r.
Proof. exact trim_es. Qed.
Print Assumptions C41_trim_guarded.

Theorem C41_trim_refuted : exists s, ~ exists r,
  trim is_white_space true true s = SOk r /\ trimmed es_space true true s r.
Proof.
  exists [0x85; 97]. intros (r & E & pre & post & Sp & F1 & F2 & _). vm_compute in E. injection E as <-.
  destruct pre as [|x pre]; [discriminate|]. injection Sp as <- _. inversion F1 as [|? ? K _].
  unfold es_space in K. cbn [In] in K. lia.
Qed.
Print Assumptions C41_trim_refuted.

(** The trimmed text is unique, so the relation fixes the result. *)
Theorem C41_trimmed_unique : forall sp at_start at_end s r1 r2,
  trimmed sp at_start at_end s r1 -> trimmed sp at_start at_end s r2 -> r1 = r2.
Proof. exact trimmed_unique. Qed.
Print Assumptions C41_trimmed_unique.

Theorem C41_pad : forall at_start s max_len fill,
  let p := match fill with None => [32] | Some p => p end in
  let target := to_length max_len in
  if (target <=? len s) || (length p =? 0)%nat then pad at_start s max_len fill = s
  else exists f, filler p (Z.to_nat (target - len s)) f /\
                 pad at_start s max_len fill = (if at_start then f ++ s else s ++ f) /\
                 len (pad at_start s max_len fill) = target.
Proof. exact pad_spec. Qed.
Print Assumptions C41_pad.

Example C41_witness :
  trim is_white_space true false [32; 0xfeff; 97; 32] = SOk [97; 32] /\
  trim is_white_space true true [32; 10; 32] = SOk [] /\
  trim is_white_space true true [97; 32; 98; 0x2029] = SOk [97; 32; 98] /\
  pad true [97] (Fin 6) (Some [49; 50]) = [49; 50; 49; 50; 49; 97] /\
  pad false [97] (Fin 3) None = [97; 32; 32].
Proof. vm_compute. repeat split; reflexivity. Qed.

(** ** C51: repeat *)

(** As long as the result has fewer than 2^63 units, repeat returns exactly n
    copies, or throws when the memory is not granted. *)
Theorem C51_repeat_guarded : forall mem s n, 0 <= mem < 2 ^ 63 -> 0 <= n < 2 ^ 64 -> n * len s < 2 ^ 63 ->
  match js_repeat mem s (Fin n) with
  | SOk r => length r = (Z.to_nat n * length s)%nat /\
             forall i, (i < length r)%nat -> nth i r 0 = nth (i mod length s) s 0
  | SThrow => mem < 2 * (n * len s)
  | SUB => False
  end.
Proof.
  intros mem s n Hm Hn Ht. rewrite js_repeat_ok; try lia.
  - destruct (Z.ltb_spec mem (2 * (n * len s))); [lia|]. rewrite copies_length. split; [reflexivity|].
    intros i Hi. apply copies_nth, Hi.
Qed.
Print Assumptions C51_repeat_guarded.

(** A negative or infinite count throws. *)
Theorem C51_repeat_bad_count : forall mem s c, match c with Fin n => n < 0 | _ => True end ->
  js_repeat mem s c = SThrow.
Proof.
  intros mem s [|n|] H; try reflexivity. unfold js_repeat. rewrite (proj2 (Z.ltb_lt n 0) H). reflexivity.
Qed.
Print Assumptions C51_repeat_bad_count.

(** Exactly when memory outside the result buffer is written (or the count has
    no size_t value). *)
Theorem C51_repeat_unsafe_iff : forall mem s n, 0 <= mem < 2 ^ 63 ->
  (js_repeat mem s (Fin n) = SUB <->
   0 <= n /\ (2 ^ 64 <= n \/
     (n * len s) mod 2 ^ 64 = 2 ^ 64 - 1 \/
     (2 * (n * len s) mod 2 ^ 64 <= mem /\ 2 ^ 64 <= 2 * (n * len s)))).
Proof. exact js_repeat_safe_iff. Qed.
Print Assumptions C51_repeat_unsafe_iff.

Theorem C51_repeat_refuted : exists s n, 0 <= n < 2 ^ 53 * 2 ^ 10 /\ js_repeat (2 ^ 30) s (Fin n) = SUB.
Proof. exists [97; 98; 99; 100], (2 ^ 62). split; [split; discriminate || reflexivity|vm_compute; reflexivity]. Qed.
Print Assumptions C51_repeat_refuted.

Example C51_witness :
  js_repeat (2 ^ 30) [97; 98] (Fin 3) = SOk [97; 98; 97; 98; 97; 98] /\
  js_repeat (2 ^ 30) [97] (Fin (2 ^ 40)) = SThrow /\ js_repeat (2 ^ 30) [97] (Fin 0) = SOk [].
Proof. vm_compute. repeat split; reflexivity. Qed.

(** ** C52: split *)

Theorem C52_split : forall s sep lim, 0 < lim -> sep <> [] ->
  exists full, splits sep s full /\ js_split s (Some sep) lim = SOk (firstn (Z.to_nat lim) full).
Proof. exact js_split_spec. Qed.
Print Assumptions C52_split.

(** With no effective limit the pieces joined by the separator give the text
    back and contain no separator. *)
Theorem C52_split_join : forall s sep lim l, sep <> [] -> js_split s (Some sep) lim = SOk l ->
  Z.of_nat (length l) < lim -> join sep l = s /\ forall x, In x l -> forall i, ~ occurs sep x i.
Proof.
  intros s sep lim l Hs E L. destruct (js_split_spec s sep lim ltac:(lia) Hs) as (full & Sf & E2).
  rewrite E2 in E. injection E as <-. rewrite firstn_length in L.
  rewrite firstn_all2 by lia. split; [apply splits_join, Sf|]. exact (splits_no_sep sep s full Hs Sf).
Qed.
Print Assumptions C52_split_join.

Theorem C52_split_units : forall s lim, 0 < lim ->
  js_split s (Some []) lim = SOk (map (fun c => [c]) (firstn (Z.to_nat (Z.min lim (len s))) s)).
Proof. exact js_split_empty. Qed.
Print Assumptions C52_split_units.

Theorem C52_split_limit_zero_or_undefined : forall s sep lim,
  js_split s sep 0 = SOk [] /\ (0 < lim -> js_split s None lim = SOk [s]).
Proof.
  intros s sep lim. split; [reflexivity|]. intros H. unfold js_split.
  rewrite (proj2 (Z.eqb_neq lim 0)) by lia. reflexivity.
Qed.
Print Assumptions C52_split_limit_zero_or_undefined.

Example C52_witness :
  js_split [97; 44; 44; 98; 44] (Some [44]) 4294967295 = SOk [[97]; []; [98]; []] /\
  js_split [97; 97; 97] (Some [97; 97]) 4294967295 = SOk [[]; [97]] /\
  js_split [97; 44; 98; 44; 99] (Some [44]) 2 = SOk [[97]; [98]].
Proof. vm_compute. repeat split; reflexivity. Qed.

(** ** C53: code points *)

(** for-of over a string yields one piece per code point: well-formed pairs
    together, everything else alone; the pieces concatenate to the string. *)
Theorem C53_iteration : forall s, exists r, js_iterate s = SOk r /\ pieces s r /\ List.concat r = s.
Proof.
  intros s. destruct (js_iterate_spec s) as (r & E & P). exists r. split; [exact E|]. split; [exact P|].
  apply pieces_concat, P.
Qed.
Print Assumptions C53_iteration.

(** codePointAt i is the code point whose UTF-16 form is the first piece of the
    text from i on. *)
Theorem C53_codePointAt : forall s i, Forall (fun c => 0 <= c <= 0xffff) s -> 0 <= i < len s ->
  exists c p rest, js_codePointAt s (Fin i) = SOk (Some c) /\ utf16 c p /\
    skipn (Z.to_nat i) s = p ++ rest /\
    forall r, pieces (skipn (Z.to_nat i) s) r -> exists t, r = p :: t.
Proof.
  intros s i U H. unfold js_codePointAt. rewrite (proj2 (Z.ltb_ge i 0)), (proj2 (Z.leb_gt (len s) i)) by lia.
  cbn [orb]. unfold len in H.
  destruct (get_uc_spec s (Z.to_nat i) ltac:(lia) U) as (c & p & rest & -> & K). exists c, p, rest.
  split; [reflexivity|exact K].
Qed.
Print Assumptions C53_codePointAt.

Theorem C53_codePointAt_outside : forall s posn,
  match posn with Fin i => i < 0 \/ len s <= i | _ => True end -> js_codePointAt s posn = SOk None.
Proof.
  intros s [|i|] H; try reflexivity. unfold js_codePointAt. destruct (Z.ltb_spec i 0); [reflexivity|].
  rewrite (proj2 (Z.leb_le (len s) i)) by lia. reflexivity.
Qed.
Print Assumptions C53_codePointAt_outside.

Theorem C53_fromCodePoint : forall args,
  match js_fromCodePoint args with
  | SOk s => exists cps us, args = map Some cps /\ Forall2 utf16 cps us /\ s = List.concat us
  | SThrow => exists a, In a args /\ (a = None \/ exists n, a = Some n /\ ~ (0 <= n <= 0x10ffff))
  | SUB => False
  end.
Proof. exact js_fromCodePoint_spec. Qed.
Print Assumptions C53_fromCodePoint.

(** Round trip of one code point. *)
Theorem C53_round_trip : forall cp, 0 <= cp <= 0x10ffff ->
  exists s, js_fromCodePoint [Some cp] = SOk s /\ js_codePointAt s (Fin 0) = SOk (Some cp).
Proof.
  intros cp H. unfold js_fromCodePoint. cbn [from_code_points].
  rewrite (proj2 (Z.ltb_ge cp 0)), (proj2 (Z.ltb_ge 0x10ffff cp)) by lia. cbn [orb].
  destruct (append_uc_spec [] cp H) as (u & U & ->). exists u. split; [reflexivity|].
  destruct U as [(R & ->) | (R & h & l & Hh & Hl & -> & Ec)].
  - unfold js_codePointAt, get_uc. cbn. destruct (is_leading cp); reflexivity.
  - unfold js_codePointAt, get_uc. cbn [nth_error length]. change (Z.to_nat 0) with 0%nat. cbn [nth_error].
    change ((0 <? 0) || (len [h; l] <=? 0)) with false. cbn iota.
    rewrite (proj2 (is_leading_spec h) Hh). cbn [negb orb Nat.eqb Nat.sub].
    rewrite (proj2 (is_trailing_spec l) Hl). cbn [sbind]. do 2 f_equal.
    apply (utf16_inj _ _ [h; l]); [apply pair_to_uc_spec; assumption|].
    right. split; [exact R|]. exists h, l. auto.
Qed.
Print Assumptions C53_round_trip.

Example C53_witness :
  js_iterate [0xd83d; 0xde00; 97; 0xd83d] = SOk [[0xd83d; 0xde00]; [97]; [0xd83d]] /\
  js_codePointAt [0xd83d; 0xde00; 97] (Fin 0) = SOk (Some 0x1f600) /\
  js_fromCodePoint [Some 0x1f600; Some 97] = SOk [0xd83d; 0xde00; 97] /\
  js_fromCodePoint [Some 0x110000] = SThrow.
Proof. vm_compute. repeat split; reflexivity. Qed.

(** ** C54: slice, substring, at, charAt, charCodeAt *)

Theorem C54_slice : forall s start stop a b,
  rel_bound start (len s) a -> rel_bound stop (len s) b ->
  exists r, js_slice s (Fin start) (Some (Fin stop)) = SOk r /\
    (b <= a -> r = []) /\
    (a < b -> s = firstn (Z.to_nat a) s ++ r ++ skipn (Z.to_nat b) s /\ len r = b - a).
Proof.
  intros s start stop a b Ha Hb. pose proof (js_slice_spec s (Fin start) (Some (Fin stop))) as K. cbn iota zeta in K.
  assert (Ea : slice_bound (Fin start) (len s) = a).
  { pose proof (slice_bound_rel start (len s)) as [P N]. destruct Ha as [P' N']. destruct (Z.lt_ge_cases start 0); [rewrite N, N'; lia|rewrite P, P'; lia]. }
  assert (Eb : slice_bound (Fin stop) (len s) = b).
  { pose proof (slice_bound_rel stop (len s)) as [P N]. destruct Hb as [P' N']. destruct (Z.lt_ge_cases stop 0); [rewrite N, N'; lia|rewrite P, P'; lia]. }
  rewrite Ea, Eb in K. exact K.
Qed.
Print Assumptions C54_slice.

Theorem C54_slice_limits : forall s start stop,
  js_slice s start None = js_slice s start (Some (Fin (len s))) /\
  js_slice s NInf stop = js_slice s (Fin 0) stop /\ js_slice s PInf stop = SOk [] /\
  js_slice s start (Some PInf) = js_slice s start None /\ js_slice s start (Some NInf) = SOk [].
Proof.
  intros s start stop. assert (L : 0 <= len s) by (unfold len; lia).
  assert (Rg : forall n, 0 <= slice_bound n (len s) <= len s).
  { intros n. unfold slice_bound. destruct n; try lia. destruct (Z.ltb_spec z 0); lia. }
  assert (B0 : slice_bound (Fin 0) (len s) = 0) by (unfold slice_bound; change (0 <? 0) with false; cbn iota; lia).
  assert (BL : slice_bound (Fin (len s)) (len s) = len s)
    by (unfold slice_bound; destruct (Z.ltb_spec (len s) 0); lia).
  unfold js_slice. split; [reflexivity|]. split; [rewrite B0; reflexivity|]. split; [|split].
  - change (slice_bound PInf (len s)) with (len s).
    rewrite (proj2 (Z.leb_le _ _)); [reflexivity|apply Rg].
  - rewrite BL. reflexivity.
  - change (slice_bound NInf (len s)) with 0. rewrite (proj2 (Z.leb_le _ _)); [reflexivity|apply Rg].
Qed.
Print Assumptions C54_slice_limits.

Theorem C54_substring : forall s start stop,
  let a := pos_in start (len s) in
  let b := match stop with None => len s | Some e => pos_in e (len s) end in
  exists r, js_substring s start stop = SOk r /\
    s = firstn (Z.to_nat (Z.min a b)) s ++ r ++ skipn (Z.to_nat (Z.max a b)) s /\
    len r = Z.max a b - Z.min a b.
Proof.
  intros s start stop. pose proof (js_substring_spec s start stop) as K. cbn zeta in *.
  destruct stop; rewrite ?pos_in_clamp in K; exact K.
Qed.
Print Assumptions C54_substring.

Theorem C54_at : forall s n,
  let k := match n with Fin z => if 0 <=? z then z else len s + z | NInf => -1 | PInf => len s end in
  js_at s n = SOk (if (0 <=? k) && (k <? len s) then Some [nth (Z.to_nat k) s 0] else None).
Proof. exact js_at_spec. Qed.
Print Assumptions C54_at.

Theorem C54_charAt : forall s n,
  js_charAt s n = SOk (match n with
                       | Fin z => if (0 <=? z) && (z <? len s) then [nth (Z.to_nat z) s 0] else []
                       | _ => [] end).
Proof. exact js_charAt_spec. Qed.
Print Assumptions C54_charAt.

Theorem C54_charCodeAt : forall s n,
  js_charCodeAt s n = SOk (match n with
                       | Fin z => if (0 <=? z) && (z <? len s) then Some (nth (Z.to_nat z) s 0) else None
                       | _ => None end).
Proof. exact js_charCodeAt_spec. Qed.
Print Assumptions C54_charCodeAt.

Example C54_witness :
  js_slice [97; 98; 99; 100] (Fin (-3)) (Some (Fin (-1))) = SOk [98; 99] /\
  js_slice [97; 98; 99; 100] (Fin 2) None = SOk [99; 100] /\
  js_substring [97; 98; 99; 100] (Fin 3) (Some (Fin 1)) = SOk [98; 99] /\
  js_at [97; 98] (Fin (-1)) = SOk (Some [98]) /\ js_charAt [97; 98] (Fin 2) = SOk [] /\
  rel_bound (-3) 4 1.
Proof. vm_compute. repeat split; try reflexivity; intros; congruence. Qed.
