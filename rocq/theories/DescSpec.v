(** ECMA-262 (2023): property descriptors (6.2.6.4, 6.2.6.5), EnumerableOwnProperties
    (7.3.23) and the functions of Object (20.1.2, 20.1.3.6). *)
From Coq Require Import List ZArith Bool Ascii String.
From Verif Require Import MethModel DescModel.
Import ListNotations.
Local Open Scope Z_scope.

Section S.
Variable w : dworld.
Notation M := (M (DW w)).

(** HasProperty, and Get if there is one *)
Definition s_field (o : val) (f : field) : M (option val) :=
  h <- d_has_field w o f ;; if h then v <- d_field w o f ;; ret (Some v) else ret None.
Definition truth (o : option val) : option bool := match o with Some v => Some (d_truthy w v) | None => None end.
Definition s_function (o : option val) : M unit :=
  match o with
  | Some v => if d_callable w v then ret tt else match v with Undef => ret tt | _ => throw TypeError end
  | None => ret tt
  end.
(** 6.2.6.5 *)
Definition s_to_pd (o : val) : M desc :=
  match o with
  | Ref _ =>
      e <- s_field o FEnumerable ;;
      c <- s_field o FConfigurable ;;
      v <- s_field o FValue ;;
      wr <- s_field o FWritable ;;
      g <- s_field o FGet ;;
      s_function g ;;;
      st <- s_field o FSet ;;
      s_function st ;;;
      match g, st, v, wr with
      | None, None, _, _ | _, _, None, None =>
          ret (mkD v (truth wr) g st (truth e) (truth c))
      | _, _, _, _ => throw TypeError
      end
  | _ => throw TypeError
  end.
(** 6.2.6.4 *)
Definition opt {A} (f : field) (g : A -> val) (o : option A) : list (field * val) :=
  match o with Some a => [(f, g a)] | None => [] end.
Definition s_from_pd (d : desc) : list (field * val) :=
  opt FValue id (d_value d) ++ opt FWritable Bool (d_writable d) ++ opt FGet id (d_getter d) ++
  opt FSet id (d_setter d) ++ opt FEnumerable Bool (d_enumerable d) ++ opt FConfigurable Bool (d_configurable d).

(** 7.3.8 *)
Definition s_define (o : val) (k : pkey) (d : desc) : M unit :=
  ok <- d_define w o k d ;; if ok then ret tt else throw TypeError.
(** 20.1.2.4 *)
Definition s_define_property (o p attrs : val) : M val :=
  match o with
  | Ref _ => k <- d_key w p ;; d <- s_to_pd attrs ;; s_define o k d ;;; ret o
  | _ => throw TypeError
  end.
(** [[GetOwnProperty]] gives a property that is enumerable *)
Definition s_enumerable (o : val) (k : pkey) : M bool :=
  r <- d_own w o k ;; ret (match r with Some d => match d_enumerable d with Some b => b | None => false end | None => false end).
(** 20.1.2.3.1: first all descriptors are read, then all properties are defined *)
Fixpoint s_read (props : val) (keys : list pkey) : M (list (pkey * desc)) :=
  match keys with
  | [] => ret []
  | k :: keys =>
      e <- s_enumerable props k ;;
      if e then v <- d_get w props k ;; d <- s_to_pd v ;; l <- s_read props keys ;; ret ((k, d) :: l)
      else s_read props keys
  end.
Fixpoint s_define_all (o : val) (l : list (pkey * desc)) : M unit :=
  match l with [] => ret tt | (k, d) :: l => s_define o k d ;;; s_define_all o l end.
Definition s_define_properties (o props : val) : M val :=
  match o with
  | Ref _ => p <- d_object w props ;; keys <- d_keys w p ;; l <- s_read p keys ;; s_define_all o l ;;; ret o
  | _ => throw TypeError
  end.
(** what the code does instead: it defines each property at once *)
Fixpoint s_define_each (o props : val) (keys : list pkey) : M unit :=
  match keys with
  | [] => ret tt
  | k :: keys =>
      e <- s_enumerable props k ;;
      if e then v <- d_get w props k ;; d <- s_to_pd v ;; s_define o k d ;;; s_define_each o props keys
      else s_define_each o props keys
  end.

(** 7.3.23 *)
Definition s_item (f : what) (o : val) (k : pkey) : M item :=
  match f with
  | Keys => ret (IKey k)
  | Values => v <- d_get w o k ;; ret (IVal v)
  | Entries => v <- d_get w o k ;; ret (IPair k v)
  end.
Fixpoint s_items (f : what) (o : val) (keys : list pkey) : M (list item) :=
  match keys with
  | [] => ret []
  | PSym _ :: keys => s_items f o keys
  | PStr s :: keys =>
      e <- s_enumerable o (PStr s) ;;
      if e then i <- s_item f o (PStr s) ;; l <- s_items f o keys ;; ret (i :: l) else s_items f o keys
  end.
Definition s_own_properties (f : what) (v : val) : M (list item) :=
  o <- d_object w v ;; keys <- d_keys w o ;; s_items f o keys.
(** 20.1.2.11.1 *)
Fixpoint s_names (strings : bool) (keys : list pkey) : list pkey :=
  match keys with
  | [] => []
  | PStr s :: keys => if strings then PStr s :: s_names strings keys else s_names strings keys
  | PSym n :: keys => if strings then s_names strings keys else PSym n :: s_names strings keys
  end.
Definition s_own_keys (strings : bool) (v : val) : M (list pkey) :=
  o <- d_object w v ;; keys <- d_keys w o ;; ret (s_names strings keys).
(** 20.1.2.1 *)
Fixpoint s_assign_keys (dst from : val) (keys : list pkey) : M unit :=
  match keys with
  | [] => ret tt
  | k :: keys =>
      e <- s_enumerable from k ;;
      (if e then v <- d_get w from k ;; ok <- d_set w dst k v ;; if ok then ret tt else throw TypeError else ret tt) ;;;
      s_assign_keys dst from keys
  end.
Fixpoint s_assign_all (dst : val) (srcs : list val) : M unit :=
  match srcs with
  | [] => ret tt
  | Undef :: srcs | Null :: srcs => s_assign_all dst srcs
  | s :: srcs => from <- d_object w s ;; keys <- d_keys w from ;; s_assign_keys dst from keys ;;; s_assign_all dst srcs
  end.
Definition s_assign (target : val) (srcs : list val) : M val :=
  to <- d_object w target ;; s_assign_all to srcs ;;; ret to.
(** 20.1.2.8 and 20.1.2.9 *)
Definition s_get_descriptor (o p : val) : M (option (list (field * val))) :=
  obj <- d_object w o ;; k <- d_key w p ;; r <- d_own w obj k ;;
  ret (match r with Some d => Some (s_from_pd d) | None => None end).
Fixpoint s_descriptors (o : val) (keys : list pkey) : M (list (pkey * list (field * val))) :=
  match keys with
  | [] => ret []
  | k :: keys =>
      r <- d_own w o k ;;
      l <- s_descriptors o keys ;;
      ret (match r with Some d => (k, s_from_pd d) :: l | None => l end)
  end.
Definition s_get_descriptors (v : val) : M (list (pkey * list (field * val))) :=
  o <- d_object w v ;; keys <- d_keys w o ;; s_descriptors o keys.

(** 20.1.3.6 *)
Definition s_builtin (a : bool) (o : val) : string :=
  if a then "Array" else
  match d_kind w o, d_callable w o with
  | KArguments, _ => "Arguments" | _, true => "Function" | KError, _ => "Error" | KBoolean, _ => "Boolean"
  | KNumber, _ => "Number" | KString, _ => "String" | KDate, _ => "Date" | KRegExp, _ => "RegExp" | KOther, _ => "Object"
  end.
Definition s_text (tag : list Z) : list Z := chars "[object " ++ tag ++ chars "]".
Definition s_to_string (this : val) : M (list Z) :=
  match this with
  | Undef => ret (s_text (chars "Undefined"))
  | Null => ret (s_text (chars "Null"))
  | _ => o <- d_object w this ;; a <- d_is_array w o ;; t <- d_tag w o ;;
         ret (s_text (match t with Str s => s | _ => chars (s_builtin a o) end))
  end.
End S.
