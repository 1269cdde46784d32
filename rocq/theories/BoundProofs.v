(** Functions bound any number of times. *)
From Coq Require Import List ZArith Bool Lia.
From Verif Require Import BoundModel BoundSpec.
Import ListNotations.
Local Open Scope Z_scope.

Lemma all_args_app b a : all_args b a = b ++ a.
Proof. unfold all_args. destruct a; cbn [is_nil]; [symmetry; apply app_nil_r|]. destruct b; reflexivity. Qed.
Lemma bind_all_snoc base l i th a : bind_all base (l ++ [(i, th, a)]) = Bound i (bind_all base l) th a.
Proof. unfold bind_all. rewrite fold_left_app. reflexivity. Qed.
Lemma arguments_snoc l i th a : arguments (l ++ [(i, th, a)]) = arguments l ++ a.
Proof. unfold arguments. rewrite map_app, concat_app. cbn. rewrite app_nil_r. reflexivity. Qed.
Lemma numbers_snoc l i th a : numbers (l ++ [(i, th, a)]) = numbers l ++ [i].
Proof. unfold numbers. rewrite map_app. reflexivity. Qed.
Theorem call_all l : forall i c this args,
  call (bind_all (Base i c) l) this args = mkCalled i (receiver l this) (arguments l ++ args).
Proof.
  induction l as [|[[j th] a] l IH] using rev_ind; intros i c this args; [reflexivity|].
  rewrite bind_all_snoc, arguments_snoc. cbn [call]. rewrite all_args_app, IH, <- app_assoc.
  f_equal. destruct l as [|[[? ?] ?] ?]; reflexivity.
Qed.
Theorem ctor_all l : forall i c, is_ctor (bind_all (Base i c) l) = c.
Proof.
  induction l as [|[[j th] a] l IH] using rev_ind; intros i c; [reflexivity|]. rewrite bind_all_snoc. apply IH.
Qed.
Lemma construct_ctor l : forall i args nt,
  exists t, construct (bind_all (Base i true) l) args nt = Some (mkMade i (arguments l ++ args) t) /\
    ((In nt (numbers l) /\ t = i) \/ (~ In nt (numbers l) /\ t = nt)).
Proof.
  induction l as [|[[j th] a] l IH] using rev_ind; intros i args nt.
  - exists nt. split; [reflexivity|]. right. split; [intros []|reflexivity].
  - rewrite bind_all_snoc, arguments_snoc. cbn [construct]. rewrite all_args_app, <- app_assoc.
    rewrite numbers_snoc.
    destruct (Z.eqb_spec j nt) as [->|N].
    + destruct (IH i (a ++ args) (fid (bind_all (Base i true) l))) as (t & E & H).
      exists t. split; [exact E|]. left. split; [apply in_or_app; right; left; reflexivity|].
      destruct H as [[_ H]|[H K]]; [exact H|]. subst t. clear E IH.
      destruct l as [|[[k th'] a'] l _] using rev_ind; [reflexivity|]. exfalso. apply H.
      rewrite bind_all_snoc. cbn [fid]. unfold numbers. rewrite map_app. apply in_or_app. right. left. reflexivity.
    + destruct (IH i (a ++ args) nt) as (t & E & H). exists t. split; [exact E|].
      destruct H as [[H K]|[H K]]; [left|right]; (split; [|exact K]).
      * apply in_or_app; left; exact H.
      * intro Q. apply in_app_or in Q as [Q|[Q|[]]]; [exact (H Q)|exact (N Q)].
Qed.
Theorem construct_none l : forall i args nt, construct (bind_all (Base i false) l) args nt = None.
Proof.
  induction l as [|[[j th] a] l IH] using rev_ind; intros i args nt; [reflexivity|].
  rewrite bind_all_snoc. cbn [construct]. apply IH.
Qed.
Theorem length_max z n : bound_length (Some (Fin z)) n = Fin (max0 (z - n)).
Proof. cbn [bound_length]. f_equal. unfold max0. destruct (Z.gtb_spec (z - n) 0); lia. Qed.
