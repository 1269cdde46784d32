(** Model of resolving exports and of namespace objects: resolve_export and
    rjs_module_resolve_export, src/lib/rjs_module_opt.c:1854-1985, the name checks
    of module_init_env, 307-410, get_export_names and rjs_module_ns_object_new,
    src/lib/rjs_module_ns_object_opt.c:385-556.

    Modules are numbers.  Names are numbers in the order of rjs_string_compare.
    All requested modules are resolved.  The export hash table of a module is
    the list of its local and indirect entries, looked up by name (C11); names
    are distinct by the early errors of the parser.  A binding is what
    RJS_ResolveBinding holds: the module and the local name, or undefined for a
    namespace.
    Not modelled: allocation failure, the garbage collector. *)

From Coq Require Import List Bool Arith.
From Verif Require Import SortModel.
Import ListNotations.

(** RJS_ExportEntry, src/lib/include/rjs_module.h:45-52: local entries, indirect
    entries with an import name, and indirect entries without one
    ("export * as n from"). *)
Inductive target := Local (name : nat) | Indirect (req name : nat) | Namespace (req : nat).

(** The modules: [dflt] is the name "default"; the import entries of a module
    are the requested module and the import name, or none for a namespace. *)
Record modules := Modules {
  dflt : nat;
  entries : nat -> list (nat * target);
  stars : nat -> list nat;
  imports : nat -> list (nat * option nat) }.

Definition binding : Type := nat * option nat.

(** The answers RJS_FALSE, RJS_TRUE and RJS_AMBIGUOUS. *)
Inductive rres := RFalse | RTrue | RAmbig.

Definition truthy (r : rres) : bool := match r with RFalse => false | _ => true end.

Definition node_eqb (a b : nat * nat) : bool := Nat.eqb (fst a) (fst b) && Nat.eqb (snd a) (snd b).
Definition name_eqb (a b : option nat) : bool :=
  match a, b with
  | None, None => true
  | Some x, Some y => Nat.eqb x y
  | _, _ => false
  end.
(** same_module and rjs_same_value of two bindings; [None] was never written. *)
Definition binding_eqb (a b : option binding) : bool :=
  match a, b with
  | None, None => true
  | Some x, Some y => Nat.eqb (fst x) (fst y) && name_eqb (snd x) (snd y)
  | _, _ => false
  end.

(** rb_set *)
Definition seen := list (nat * nat).
(** The answer, the set and the binding [*rb]; [None] is out of fuel. *)
Definition answer : Type := option (rres * seen * option binding).

Section Modules.
Variable P : modules.

Definition lookup (m n : nat) : option target :=
  match find (fun e => Nat.eqb (fst e) n) (entries P m) with
  | Some (_, t) => Some t
  | None => None
  end.

(** The loop over the star entries, 1922-1944. *)
Fixpoint star_loop (call : nat -> seen -> option binding -> answer) (l : list nat)
         (S : seen) (rb star_rb : option binding) (resolved : bool) : answer :=
  match l with
  | [] => Some (if resolved then RTrue else RFalse, S, rb)
  | r :: l' =>
      match call r S star_rb with
      | None => None
      | Some (v, S', srb) =>
          if truthy v then
            if resolved then
              if negb (binding_eqb srb rb) then Some (RAmbig, S', rb)
              else star_loop call l' S' rb srb true
            else star_loop call l' S' srb srb true
          else star_loop call l' S' rb srb resolved
      end
  end.

(** resolve_export, 1854-1955 *)
Fixpoint resolve (f : nat) (m n : nat) (S : seen) (rb : option binding) : answer :=
  if existsb (node_eqb (m, n)) S then Some (RFalse, S, rb) else
  match f with
  | O => None
  | Datatypes.S f' =>
      let S1 := S ++ [(m, n)] in
      match lookup m n with
      | Some (Local ln) => Some (RTrue, S1, Some (m, Some ln))
      | Some (Namespace r) => Some (RTrue, S1, Some (r, None))
      | Some (Indirect r i) => resolve f' r i S1 rb
      | None =>
          if Nat.eqb n (dflt P) then Some (RFalse, S1, rb)
          else star_loop (fun r S srb => resolve f' r n S srb) (stars P m) S1 rb None false
      end
  end.

(** rjs_module_resolve_export, 1967-1985: the answer and the binding. *)
Definition resolve_export (f : nat) (m n : nat) : option (rres * option binding) :=
  match resolve f m n [] None with
  | Some (r, _, rb) => Some (r, rb)
  | None => None
  end.

(** The answer of module_init_env for the names in the list: true if all of
    them resolve, false if a SyntaxError is thrown. *)
Fixpoint check_names (f : nat) (l : list (nat * nat)) : option bool :=
  match l with
  | [] => Some true
  | (m, n) :: l' =>
      match resolve_export f m n with
      | Some (RTrue, _) => check_names f l'
      | Some _ => Some false
      | None => None
      end
  end.

(** The names that module_init_env resolves, 325-350 and 357-385. *)
Definition indirect (m : nat) : list (nat * nat) :=
  flat_map (fun e => match snd e with Local _ => [] | _ => [(m, fst e)] end) (entries P m).
Definition imported (m : nat) : list (nat * nat) :=
  flat_map (fun e => match snd e with Some n => [(fst e, n)] | None => [] end) (imports P m).

Definition init_env (f : nat) (m : nat) : option bool :=
  match check_names f (indirect m) with
  | Some true => check_names f (imported m)
  | o => o
  end.

(** The loop over the entries with names, get_export_names 398-426. *)
Fixpoint add_names (l : list (nat * target)) (L : list nat) : list nat :=
  match l with
  | [] => L
  | (n, _) :: l' => if existsb (Nat.eqb n) L then add_names l' L else add_names l' (L ++ [n])
  end.

(** The star entries, 427-435. *)
Fixpoint star_names (call : nat -> list nat -> list nat -> option (list nat * list nat))
         (l : list nat) (L V : list nat) : option (list nat * list nat) :=
  match l with
  | [] => Some (L, V)
  | r :: l' =>
      match call r L V with
      | None => None
      | Some (L', V') => star_names call l' L' V'
      end
  end.

(** get_export_names, 376-442: the list of names and the visited modules. *)
Fixpoint get_names (f : nat) (m : nat) (L V : list nat) : option (list nat * list nat) :=
  if existsb (Nat.eqb m) V then Some (L, V) else
  match f with
  | O => None
  | Datatypes.S f' => star_names (get_names f') (stars P m) (add_names (entries P m) L) (m :: V)
  end.

(** The names that resolve, rjs_module_ns_object_new 497-507. *)
Fixpoint keep_names (f : nat) (m : nat) (l : list nat) : option (list nat) :=
  match l with
  | [] => Some []
  | n :: l' =>
      match resolve_export f m n, keep_names f m l' with
      | Some (RTrue, _), Some k => Some (n :: k)
      | Some _, Some k => Some k
      | _, _ => None
      end
  end.

(** string_compare, 445-454, on the numbers of the names. *)
Definition compare_names (w : unit) (a b : nat) : option cmpres * unit :=
  (Some (match Nat.compare a b with Lt => CLess | Eq => CEqual | Gt => CGreater end), w).

(** rjs_module_ns_object_new, 466-556: the exported names of the object. *)
Definition namespace (f : nat) (m : nat) : option (list nat) :=
  match get_names f m [] [] with
  | None => None
  | Some (L, _) =>
      match keep_names f m L with
      | None => None
      | Some k =>
          match rjs_sort nat unit compare_names tt k with
          | (SOk l, _) => Some l
          | _ => None
          end
      end
  end.

(** module_ns_object_op_get, 213-266, of a name: undefined when it is no
    exported name, else the binding that is read; [None] is a failed assert
    or no fuel. *)
Definition ns_get (f : nat) (m n : nat) : option (option binding) :=
  match namespace f m with
  | None => None
  | Some l =>
      if existsb (Nat.eqb n) l then
        match resolve_export f m n with
        | Some (RTrue, Some b) => Some (Some b)
        | _ => None
        end
      else Some None
  end.

End Modules.
