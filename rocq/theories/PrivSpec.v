(** What ECMA-262 says of private names (7.3.26 to 7.3.31, 9.2, 15.7.14). *)
From Coq Require Import List ZArith Bool.
From Verif Require Import PrivModel.
Import ListNotations.
Local Open Scope Z_scope.

(** PrivateGet *)
Inductive Gets : option elem -> out -> Prop :=
| G_none : Gets None TypeError
| G_field v : Gets (Some (Field v)) (Value v)
| G_method f : Gets (Some (Method f)) (Value f)
| G_getter g s : Gets (Some (Accessor (Some g) s)) (Calls g [])
| G_no_getter s : Gets (Some (Accessor None s)) TypeError.
(** PrivateSet: the outcome, and the element afterwards *)
Inductive Sets (v : Z) : option elem -> out -> option elem -> Prop :=
| S_none : Sets v None TypeError None
| S_field w : Sets v (Some (Field w)) Done (Some (Field v))
| S_method f : Sets v (Some (Method f)) TypeError (Some (Method f))
| S_setter g s : Sets v (Some (Accessor g (Some s))) (Calls s [v]) (Some (Accessor g (Some s)))
| S_no_setter g : Sets v (Some (Accessor g None)) TypeError (Some (Accessor g None)).

(** The elements of one name in a class body (15.7.1: a name is declared once, or by
    one getter and one setter), and the element that they are *)
Inductive Element : list item -> elem -> Prop :=
| E_method f : Element [IMethod f] (Method f)
| E_get g : Element [IGet g] (Accessor (Some g) None)
| E_set s : Element [ISet s] (Accessor None (Some s))
| E_get_set g s : Element [IGet g; ISet s] (Accessor (Some g) (Some s))
| E_set_get g s : Element [ISet s; IGet g] (Accessor (Some g) (Some s)).
Definition items (n : Z) (ms : list (Z * item)) : list item :=
  map snd (filter (fun x => fst x =? n) ms).
Definition class_body (ms : list (Z * item)) : Prop :=
  forall n, items n ms = [] \/ exists e, Element (items n ms) e.
(** InitializeInstanceElements, step 2: PrivateMethodOrAccessorAdd for each *)
Definition initialized (ms : list (Z * item)) (o o' : obj) : Prop :=
  forall n, (items n ms = [] -> o' n = o n) /\ (forall e, Element (items n ms) e -> o' n = Some e).
