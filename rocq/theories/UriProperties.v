(** C30: URI encoding round trip.  C31: URI decoding safety. *)
From Coq Require Import ZArith List Bool Lia.
Import ListNotations.
From Verif Require Import StrModel UriModel UriSpec UriProofs.
Local Open Scope Z_scope.

(** ** C30 *)
(** Well-formed UTF-16: the text of scalar values [cps].  The encoder produces exactly
    the specified text, of allowed ASCII characters only, and decoding returns the
    original. *)
Theorem C30_encode_decode : forall comp cps, Forall scalar cps ->
  exists t, uri_encode comp (units_of cps) = SOk t /\ encodes comp (units_of cps) t /\
    Forall (fun c => c = 37 \/ left_alone comp c) t /\
    uri_decode comp t = Some (SOk (units_of cps)).
Proof.
  intros comp cps H. destruct (encode_ok comp cps [] H) as (t & E & EN & D & A). exists t. split; [exact E|]. split; [exact EN|].
  split; [exact A|]. apply decode_ok_iff. apply (decodes_mono strict); [exact strict_lax | exact D].
Qed.
Print Assumptions C30_encode_decode.

(** Every other string of 16-bit units raises URIError. *)
Theorem C30_lone_surrogate : forall comp s, Forall (fun c => 0 <= c <= 0xffff) s ->
  (~ exists cps, Forall scalar cps /\ s = units_of cps) -> uri_encode comp s = SThrow.
Proof. intros comp s. exact (encode_bad comp s []). Qed.
Print Assumptions C30_lone_surrogate.

(** in particular the first lone surrogate after well-formed text raises it *)
Theorem C30_first_lone_surrogate : forall comp cps c r, Forall scalar cps -> 0xd800 <= c <= 0xdfff ->
  ~ (c <= 0xdbff /\ exists d r', r = d :: r' /\ 0xdc00 <= d <= 0xdfff) ->
  uri_encode comp (units_of cps ++ c :: r) = SThrow.
Proof. intros comp cps c r. exact (encode_lone comp cps c r []). Qed.
Print Assumptions C30_first_lone_surrogate.

(** "/é€😀%" *)
Example C30_witness :
  let s := [47; 0xe9; 0x20ac; 0xd83d; 0xde00; 37] in
  units_of [47; 0xe9; 0x20ac; 0x1f600; 37] = s /\
  uri_encode true s = SOk [37;50;70; 37;67;51; 37;65;57; 37;69;50; 37;56;50; 37;65;67; 37;70;48; 37;57;70; 37;57;56; 37;56;48; 37;50;53] /\
  uri_encode false s = SOk [47; 37;67;51; 37;65;57; 37;69;50; 37;56;50; 37;65;67; 37;70;48; 37;57;70; 37;57;56; 37;56;48; 37;50;53] /\
  uri_encode true [97; 0xdc00] = SThrow.
Proof. vm_compute. repeat split. Qed.

(** ** C31 *)
(** Full statement: every run either decodes well-formed escapes or throws, and never
    reads outside the string.  It is false: *)
Definition C31_statement : Prop := forall comp s,
  (forall t, uri_decode comp s = Some (SOk t) <-> decodes strict comp s t) /\
  uri_decode comp s <> Some SUB.

(** "%4" reads the character after the string; "%C0%80", "%ED%A0%80" and
    "%F7%BF%BF%BF" are accepted. *)
Theorem C31_out_of_bounds_refuted : exists s, uri_decode true s = Some SUB.
Proof. exists [37; 52]. vm_compute. reflexivity. Qed.
Print Assumptions C31_out_of_bounds_refuted.
Theorem C31_overlong_refuted : uri_decode true [37;67;48;37;56;48] = Some (SOk [0]).
Proof. vm_compute. reflexivity. Qed.
Print Assumptions C31_overlong_refuted.
Theorem C31_surrogate_refuted : uri_decode true [37;69;68;37;65;48;37;56;48] = Some (SOk [0xd800]).
Proof. vm_compute. reflexivity. Qed.
Print Assumptions C31_surrogate_refuted.
Theorem C31_range_refuted : uri_decode true [37;70;55;37;66;70;37;66;70;37;66;70] = Some (SOk [0xdfbf; 0xdfff]).
Proof. vm_compute. reflexivity. Qed.
Print Assumptions C31_range_refuted.
Theorem C31_refuted : ~ C31_statement.
Proof. intro H. destruct (H true [37; 52]) as [_ K]. apply K. vm_compute. reflexivity. Qed.
Print Assumptions C31_refuted.

(** What holds.  Well-formed input decodes to the right text: *)
Theorem C31_decodes_well_formed_guarded : forall comp s t, decodes strict comp s t -> uri_decode comp s = Some (SOk t).
Proof. intros comp s t D. apply decode_ok_iff. apply (decodes_mono strict); [exact strict_lax | exact D]. Qed.
Print Assumptions C31_decodes_well_formed_guarded.

(** the accepted language, exactly: escapes of a lead byte and the right number of
    continuation bytes, without the minimality and range conditions of UTF-8 *)
Theorem C31_accepted_actual : forall comp s t, uri_decode comp s = Some (SOk t) <-> decodes lax comp s t.
Proof. exact decode_ok_iff. Qed.
Print Assumptions C31_accepted_actual.

(** the out-of-bounds read, exactly: a string whose accepted prefix is followed by '%' and
    one hexadecimal digit at the end *)
Theorem C31_out_of_bounds_actual : forall comp s, uri_decode comp s = Some SUB <->
  exists p t a x, s = p ++ [37; a] /\ hex_digit a x /\ decodes lax comp p t.
Proof. exact decode_ub_iff. Qed.
Print Assumptions C31_out_of_bounds_actual.

(** everything else is a URIError, so truncated escapes are rejected *)
Theorem C31_rejected_actual : forall comp s, uri_decode comp s = Some SThrow <->
  (~ exists t, decodes lax comp s t) /\ ~ exists p t a x, s = p ++ [37; a] /\ hex_digit a x /\ decodes lax comp p t.
Proof.
  intros comp s. split.
  - intro H. split; [intros (t & D); apply decode_ok_iff in D; congruence | intro K; apply decode_ub_iff in K; congruence].
  - intros [N1 N2]. destruct (uri_decode comp s) as [[t | |]|] eqn:E.
    + exfalso. apply N1. exists t. apply decode_ok_iff. exact E.
    + reflexivity.
    + exfalso. apply N2. apply decode_ub_iff in E. exact E.
    + exfalso. apply (decode_total comp s E).
Qed.
Print Assumptions C31_rejected_actual.

(** "%E2%82%AC%2F" *)
Example C31_witness : exists t, decodes strict true [37;69;50; 37;56;50; 37;65;67; 37;50;70] t /\ t = [0x20ac; 47].
Proof.
  exists [0x20ac; 47]. split; [|reflexivity].
  apply (D_escape strict true [226; 130; 172] [37;69;50; 37;56;50; 37;65;67] [0x20ac] [37;50;70] [47]).
  - change 226 with (16 * 14 + 2). change 130 with (16 * 8 + 2). change 172 with (16 * 10 + 12).
    repeat (constructor; [unfold hex_digit; lia | unfold hex_digit; lia|]). constructor.
  - exists 0x20ac. vm_compute. split; [left; split; congruence | split; reflexivity].
  - intros [H _]. discriminate H.
  - apply (D_escape strict true [47] [37;50;70] [47] [] []).
    + change 47 with (16 * 2 + 15) at 1. constructor; [unfold hex_digit; lia | unfold hex_digit; lia | constructor].
    + exists 47. vm_compute. split; [left; split; congruence | split; reflexivity].
    + intros [H _]. discriminate H.
    + constructor.
Qed.
Example C31_witness_keep : uri_decode false [37;50;102; 37;65] = Some SUB /\ uri_decode false [37;50;102; 97] = Some (SOk [37;50;102; 97]) /\
  uri_decode true [37] = Some SThrow /\ uri_decode true [37;69;50;37;56;50] = Some SThrow /\ uri_decode true [37;56;48] = Some SThrow.
Proof. vm_compute. repeat split. Qed.
