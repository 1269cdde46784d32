(** Specification of the mapped arguments object: an ordinary object some of
    whose data properties are linked to parameters. *)
From Coq Require Import List ZArith Bool.
Import ListNotations.
From Verif Require Import StoreModel ObjModel ObjSpec ArgsModel.
Local Open Scope Z_scope.

(** visible properties, links, extensible, values of the parameters *)
Record aobj := mkO { vis : key -> option aprop; link : key -> option Z; sext : bool; par : Z -> val }.

Definition unchanged (s s' : aobj) : Prop :=
  (forall k, vis s' k = vis s k) /\ (forall k, link s' k = link s k) /\ sext s' = sext s /\ (forall p, par s' p = par s p).

(** Property [k] becomes [after].  A linked parameter takes the value of the
    property as long as this is a data property, and the link lasts as long as
    the property is a writable data property. *)
Definition replaced (s : aobj) (k : key) (after : option aprop) (s' : aobj) : Prop :=
  vis s' k = after /\ (forall j, j <> k -> vis s' j = vis s j) /\
  link s' k = (match after with Some (AData _ true _ _) => link s k | _ => None end) /\
  (forall j, j <> k -> link s' j = link s j) /\
  sext s' = sext s /\
  (forall p, link s k <> Some p -> par s' p = par s p) /\
  (forall p, link s k = Some p ->
     par s' p = match after with Some (AData v _ _ _) => v | _ => par s p end).

(** A parameter takes a value: so does the property linked to it. *)
Definition written (s : aobj) (p : Z) (v : val) (s' : aobj) : Prop :=
  par s' p = v /\ (forall q, q <> p -> par s' q = par s q) /\
  (forall k, link s' k = link s k) /\ sext s' = sext s /\
  (forall k, link s k <> Some p -> vis s' k = vis s k) /\
  (forall k, link s k = Some p ->
     vis s' k = match vis s k with Some (AData _ w e c) => Some (AData v w e c) | x => x end).

Inductive sstep (s : aobj) : op -> aobj -> ans -> Prop :=
| s_own k s' : unchanged s s' -> sstep s (Own k) s' (ADesc (option_map full (vis s k)))
| s_get_none k s' : unchanged s s' -> vis s k = None -> sstep s (Get k) s' AProto
| s_get_data k s' v w e c : unchanged s s' -> vis s k = Some (AData v w e c) -> sstep s (Get k) s' (AVal v)
| s_get_acc k s' g t e c : unchanged s s' -> vis s k = Some (AAcc g t e c) ->
    sstep s (Get k) s' (match g with Undef => AVal Undef | f => ACall f end)
| s_define k d s' r after : ecma_define (sext s) d (vis s k) r after -> replaced s k after s' ->
    sstep s (Define k d) s' (ABool r)
| s_set_proto k v self s' : unchanged s s' -> vis s k = None -> sstep s (Set_ k v self false) s' AProto
| s_set_new k v s' r after : vis s k = None -> ecma_define (sext s) (all_true v) None r after ->
    replaced s k after s' -> sstep s (Set_ k v true true) s' (ABool r)
| s_set_other_new k v s' : unchanged s s' -> vis s k = None -> sstep s (Set_ k v false true) s' AOther
| s_set_locked k v self root s' x e c : unchanged s s' -> vis s k = Some (AData x false e c) ->
    sstep s (Set_ k v self root) s' (ABool false)
| s_set_value k v root s' x e c : vis s k = Some (AData x true e c) ->
    replaced s k (Some (AData v true e c)) s' -> sstep s (Set_ k v true root) s' (ABool true)
| s_set_other k v root s' x e c : unchanged s s' -> vis s k = Some (AData x true e c) ->
    sstep s (Set_ k v false root) s' AOther
| s_set_acc k v self root s' g t e c : unchanged s s' -> vis s k = Some (AAcc g t e c) ->
    sstep s (Set_ k v self root) s' (match t with Undef => ABool false | f => ACall f end)
| s_delete_none k s' : unchanged s s' -> vis s k = None -> sstep s (Delete k) s' (ABool true)
| s_delete k s' a : vis s k = Some a -> ~ non_configurable a -> replaced s k None s' ->
    sstep s (Delete k) s' (ABool true)
| s_delete_no k s' a : unchanged s s' -> vis s k = Some a -> non_configurable a -> sstep s (Delete k) s' (ABool false)
| s_noext s' : (forall k, vis s' k = vis s k) -> (forall k, link s' k = link s k) -> sext s' = false ->
    (forall p, par s' p = par s p) -> sstep s NoExt s' (ABool true)
| s_read p s' : unchanged s s' -> sstep s (Read p) s' (AVal (par s p))
| s_write p v s' : written s p v s' -> sstep s (Write p v) s' (ABool true).

(** A linked property shows the value of its parameter, and no two properties
    are linked to the same one. *)
Definition linked_ok (s : aobj) : Prop :=
  (forall k p, link s k = Some p -> exists e c, vis s k = Some (AData (par s p) true e c)) /\
  (forall j k p, link s j = Some p -> link s k = Some p -> j = k).

(** What is visible of the object of the model. *)
Definition show (a : args) : aobj :=
  mkO (fun k => match props a k with
                | None => None
                | Some p =>
                    match mapped a k, view p with
                    | Some (_, n), AData _ w e c => Some (AData (env a n) w e c)
                    | _, x => Some x
                    end
                end)
      (fun k => option_map snd (mapped a k)) (aext a) (env a).

Fixpoint run (a : args) (ops : list op) : list ans :=
  match ops with
  | [] => []
  | o :: r => let '(a', x) := step a o in x :: run a' r
  end.
Inductive sruns : aobj -> list op -> list ans -> Prop :=
| sr_nil s : sruns s [] []
| sr_cons s o s' x r l : linked_ok s -> sstep s o s' x -> sruns s' r l -> sruns s (o :: r) (x :: l).

Definition op_fits (o : op) : Prop := match o with Define _ d => wf_desc d | _ => True end.

(** The links of a new object (ECMA-262 10.4.4.7): argument [i] is linked to the
    parameter of that position unless a later parameter has the same name. *)
Definition links_to (params : list Z) (argc : nat) (i : nat) (p : Z) : Prop :=
  (i < argc)%nat /\ nth_error params i = Some p /\ forall j, (i < j)%nat -> nth_error params j <> Some p.

(** The new object: the arguments, enumerable, writable and configurable, and
    the further properties [rest]. *)
Definition starts (params : list Z) (vals : list val) (rest : nkey -> option aprop) (e : Z -> val) (s : aobj) : Prop :=
  (forall k p, link s k = Some p <-> exists i, k = KIdx (Z.of_nat i) /\ links_to params (length vals) i p) /\
  (forall i v, nth_error vals i = Some v -> vis s (KIdx (Z.of_nat i)) = Some (AData v true true true)) /\
  (forall i, i < 0 \/ Z.of_nat (length vals) <= i -> vis s (KIdx i) = None) /\
  (forall n, vis s (KName n) = rest n) /\
  sext s = true /\ (forall p, par s p = e p).

(** The parameters hold their arguments. *)
Definition params_hold (params : list Z) (vals : list val) (e : Z -> val) : Prop :=
  forall i p, links_to params (length vals) i p -> nth_error vals i = Some (e p).
