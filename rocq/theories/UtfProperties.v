(** C29: text encoding conversion. *)
From Coq Require Import ZArith List Bool Lia.
Import ListNotations.
From Verif Require Import UriSpec UtfModel UtfSpec UtfProofs.
Local Open Scope Z_scope.

(** With an output buffer that is large enough, the conversion between any two of the five
    encodings is exact. *)
Theorem C29_convert_exact : forall ei eo cps cap, Forall scalar cps -> (length (text eo cps) <= cap)%nat ->
  conv_run ei eo (text ei cps) cap = Some (ROk [] (text eo cps)).
Proof. intros. unfold conv_run. apply (run_enough ei eo cps cap []); auto. Qed.
Print Assumptions C29_convert_exact.

(** UTF-16 to UTF-8 and back *)
Theorem C29_round_trip : forall cps cap1 cap2, Forall scalar cps ->
  (length (text UTF8 cps) <= cap1)%nat -> (length (text UCS2LE cps) <= cap2)%nat ->
  exists t, conv_run UCS2LE UTF8 (text UCS2LE cps) cap1 = Some (ROk [] t) /\
            conv_run UTF8 UCS2LE t cap2 = Some (ROk [] (text UCS2LE cps)).
Proof.
  intros cps cap1 cap2 S L1 L2. exists (text UTF8 cps). split; apply C29_convert_exact; assumption.
Qed.
Print Assumptions C29_round_trip.

(** When the output is UTF-16 or UTF-32, the conversion stays inside any buffer: it converts
    a prefix that fits and reports what is left. *)
Theorem C29_bounded : forall ei eo cps cap, eo <> UTF8 -> Forall scalar cps ->
  exists pre post, cps = pre ++ post /\ (length (text eo pre) <= cap)%nat /\
    ((post = [] \/ length (text eo pre) = cap) /\
       conv_run ei eo (text ei cps) cap = Some (ROk (text ei post) (text eo pre)) \/
     exists cp rest, post = cp :: rest /\ (cap < length (text eo (pre ++ [cp])))%nat /\
       conv_run ei eo (text ei cps) cap = Some (RFalse (text ei post) (text eo pre))).
Proof.
  intros ei eo cps cap N S. unfold conv_run.
  destruct (run_bounded ei eo cps cap [] (Datatypes.S (length (text ei cps))) S ltac:(lia)) as (pre & post & E & L & C).
  exists pre, post. split; [exact E|]. split; [exact L|]. cbn [app] in C.
  assert (CR : checks_room eo = true) by (destruct eo; [congruence | reflexivity ..]). rewrite CR in C.
  destruct C as [[-> R] | [[E2 R] | (cp & rest & E2 & LT & R)]].
  - left. split; [left; reflexivity | exact R].
  - left. split; [right; exact E2 | exact R].
  - right. exists cp, rest. split; [exact E2|]. split; [lia | exact R].
Qed.
Print Assumptions C29_bounded.

(** The growing buffer: complete result, whatever the buffer held, within its capacity. *)
Theorem C29_to_buffer : forall ei eo cps bytes cap, eo <> UTF8 -> Forall scalar cps -> (length bytes <= cap)%nat ->
  exists cap', conv_to_buffer ei eo (text ei cps) bytes cap = Some (BOk (bytes ++ text eo cps) cap') /\
    (length (bytes ++ text eo cps) <= cap')%nat.
Proof.
  intros ei eo cps bytes cap N S L. unfold conv_to_buffer. apply buffer_ok; [|exact S | exact L | discriminate |].
  - destruct eo; [congruence | reflexivity ..].
  - cbv iota. lia.
Qed.
Print Assumptions C29_to_buffer.

(** Input that is no text: unpaired surrogates are passed on as code points of their own and
    nothing after them is lost; only a leading surrogate at the very end is kept back. *)
Theorem C29_unpaired_surrogates : forall be eo us cap, Forall (fun u => 0 <= u < 65536) us -> (length (text eo (points us)) <= cap)%nat ->
  conv_run (if be : bool then UCS2BE else UCS2LE) eo (words be us) cap = Some (ROk (words be (left_over us)) (text eo (points us))).
Proof.
  intros be eo us cap R L. unfold conv_run. assert (F : (length us < S (length (words be us)))%nat).
  { clear. induction us as [|u us IH]; [cbn; lia|]. rewrite words_cons, app_length. destruct be; cbn [length le2 be2] in *; lia. }
  destruct (words_run be eo (length us) us cap [] _ (Nat.le_refl _) R L F) as [-> | (_ & P & -> & ->)]; [reflexivity|]. rewrite P. reflexivity.
Qed.
Print Assumptions C29_unpaired_surrogates.
Example C29_unpaired_witness : conv_run UCS2LE UCS4BE (words false [0xd800; 0x61; 0xdc00; 0xd83d; 0xde00; 0xd801]) 16 =
  Some (ROk (words false [0xd801]) (text UCS4BE [0xd800; 0x61; 0xdc00; 0x1f600])).
Proof. apply (C29_unpaired_surrogates false UCS4BE [0xd800; 0x61; 0xdc00; 0xd83d; 0xde00; 0xd801]); [repeat constructor; vm_compute; congruence | vm_compute; repeat constructor]. Qed.

(** Writing UTF-8 ignores the room left: the second half of C29 is false.  Sixteen
    characters U+4E2D converted with rjs_conv_to_buffer write past the 32 bytes allocated. *)
Theorem C29_buffer_overflow_refuted : exists cps, Forall scalar cps /\
  conv_to_buffer UCS2LE UTF8 (text UCS2LE cps) [] 0 = Some BUB.
Proof.
  exists (repeat 0x4e2d 16). split; [|vm_compute; reflexivity].
  apply Forall_forall. intros x H. apply repeat_spec in H. subst. left. lia.
Qed.
Print Assumptions C29_buffer_overflow_refuted.

(** exactly when it happens: the text does not fit and no prefix fills the buffer exactly *)
Theorem C29_overflow_actual : forall ei cps cap, Forall scalar cps ->
  (conv_run ei UTF8 (text ei cps) cap = Some RUB <->
   (cap < length (text UTF8 cps))%nat /\ forall pre post, cps = pre ++ post -> length (text UTF8 pre) <> cap).
Proof.
  intros ei cps cap S. unfold conv_run.
  destruct (run_bounded ei UTF8 cps cap [] (Datatypes.S (length (text ei cps))) S ltac:(lia)) as (pre & post & E & L & C).
  cbn [app checks_room] in C. split.
  - intro H. destruct C as [[-> R] | [[E2 R] | (cp & rest & -> & LT & R)]]; try congruence. clear H. split.
    + rewrite E, text_app, app_length, text_cons, app_length. rewrite text_app, app_length, text_cons, app_length in LT. cbn [text flat_map length] in LT. lia.
    + intros p q E2 LP. rewrite E in E2.
      assert (CMP : exists z, p = pre ++ z \/ (p ++ z = pre)).
      { clear - E2. revert p E2. induction pre as [|a pre IH]; intros p E2; [exists p; left; reflexivity|].
        destruct p as [|b p]; [exists (a :: pre); right; reflexivity|]. cbn in E2. injection E2 as <- E2.
        destruct (IH p E2) as [z [-> | <-]]; exists z; [left | right]; reflexivity. }
      destruct CMP as [z [-> | <-]].
      * rewrite <- app_assoc in E2. apply app_inv_head in E2. destruct z as [|c z].
        -- rewrite app_nil_r in LP. lia.
        -- cbn in E2. injection E2 as <- _. rewrite text_app, app_length in LT, LP. rewrite text_cons, app_length in LP.
           rewrite (text_cons UTF8 cp []), app_length in LT. cbn [text flat_map length] in LT. lia.
      * rewrite text_app, app_length in LT. lia.
  - intros [G N]. destruct C as [[-> R] | [[E2 R] | (cp & rest & -> & LT & R)]].
    + rewrite app_nil_r in E. subst pre. lia.
    + exfalso. apply (N pre post E E2).
    + exact R.
Qed.
Print Assumptions C29_overflow_actual.

(** Safe texts: from UTF-16, no character between U+0800 and U+FFFF. *)
Theorem C29_to_buffer_utf8_guarded : forall cps bytes cap, Forall scalar cps -> (length bytes <= cap)%nat ->
  Forall (fun cp => cp < 0x800 \/ 0x10000 <= cp) cps ->
  exists cap', conv_to_buffer UCS2LE UTF8 (text UCS2LE cps) bytes cap = Some (BOk (bytes ++ text UTF8 cps) cap') /\
    (length (bytes ++ text UTF8 cps) <= cap')%nat.
Proof.
  intros cps bytes cap S L G. apply buffer_utf8; [exact S | exact L|].
  eapply Forall_impl; [|exact G]. intros cp H. cbv beta in *. cbn [bytes_of]. unfold utf8, units.
  destruct (Z.ltb_spec cp 0x10000); destruct (Z.ltb_spec cp 0x80); destruct (Z.ltb_spec cp 0x800); cbn [flat_map app length le2]; lia.
Qed.
Print Assumptions C29_to_buffer_utf8_guarded.

(** "aé€😀" *)
Example C29_witness :
  let cps := [0x61; 0xe9; 0x20ac; 0x1f600] in
  text UCS2LE cps = [0x61; 0; 0xe9; 0; 0xac; 0x20; 0x3d; 0xd8; 0; 0xde] /\
  text UTF8 cps = [0x61; 0xc3; 0xa9; 0xe2; 0x82; 0xac; 0xf0; 0x9f; 0x98; 0x80] /\
  conv_run UCS2LE UTF8 (text UCS2LE cps) 10 = Some (ROk [] (text UTF8 cps)) /\
  conv_run UCS2LE UTF8 (text UCS2LE cps) 3 = Some (ROk [0xac; 0x20; 0x3d; 0xd8; 0; 0xde] [0x61; 0xc3; 0xa9]) /\
  conv_run UCS2LE UTF8 (text UCS2LE cps) 4 = Some RUB /\
  conv_run UTF8 UCS2BE (text UTF8 cps) 5 = Some (RFalse (text UTF8 [0x20ac; 0x1f600]) [0; 0x61; 0; 0xe9]) /\
  conv_to_buffer UTF8 UCS2LE (text UTF8 cps) [] 0 = Some (BOk (text UCS2LE cps) 32).
Proof. vm_compute. repeat split. Qed.
