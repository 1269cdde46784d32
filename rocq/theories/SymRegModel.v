(** The registry of symbols: Symbol, Symbol.for, Symbol.keyFor, the check of keys that
    can be held weakly, and the garbage collector as far as it concerns symbols
    (src/lib/rjs_symbol.c, src/lib/rjs_symbol_object_inc.c, src/lib/rjs_operation.c).

    A key is the number of an interned string (rjs_string_to_property_key makes equal
    strings one object). A symbol is the address of its memory. The hash tables are
    association lists (the hash tables themselves are the subject of C11). The
    allocator may return any address that is not in use; here a step names the address.
    Not modelled: failing allocation, ToString of the key. *)
From Coq Require Import List ZArith Bool.
Import ListNotations.
Local Open Scope Z_scope.

(** RJS_SymbolRegistry *)
Record entry := mkEntry { e_key : Z; e_sym : Z }.

(** [live]: the symbols in memory with their descriptions (None: undefined).
    [by_key], [by_sym]: sym_reg_key_hash and sym_reg_sym_hash. *)
Record reg := mkReg {
  live : list (Z * option Z); by_key : list (Z * entry); by_sym : list (Z * entry) }.

(** rjs_runtime_symbol_registry_init, rjs_symbol.c:84-89 *)
Definition init : reg := mkReg [] [] [].

(** rjs_hash_lookup *)
Fixpoint lookup {A} (k : Z) (t : list (Z * A)) : option A :=
  match t with
  | [] => None
  | (k', e) :: r => if k' =? k then Some e else lookup k r
  end.

(** rjs_symbol_new, rjs_symbol.c:62-78, at the address [a] *)
Definition symbol_new (s : reg) (a : Z) (desc : option Z) : reg :=
  mkReg ((a, desc) :: live s) (by_key s) (by_sym s).

(** Symbol_for, rjs_symbol_object_inc.c:143-187. The address [a] is used if a symbol is
    made. None: the assertion of line 179 fails. *)
Definition symbol_for (s : reg) (a k : Z) : option (reg * Z) :=
  match lookup k (by_key s) with
  | Some e => Some (s, e_sym e)
  | None =>
      let s1 := symbol_new s a (Some k) in
      let e := mkEntry k a in
      match lookup a (by_sym s1) with
      | Some _ => None
      | None => Some (mkReg (live s1) ((k, e) :: by_key s1) ((a, e) :: by_sym s1), a)
      end
  end.

(** Symbol_keyFor, rjs_symbol_object_inc.c:190-213, of a symbol *)
Definition key_for (s : reg) (a : Z) : option Z :=
  match lookup a (by_sym s) with
  | Some e => Some (e_key e)
  | None => None
  end.

(** rjs_can_be_held_weakly, rjs_operation.c:2426-2444, of a symbol *)
Definition held_weakly (s : reg) (a : Z) : bool :=
  match lookup a (by_sym s) with
  | Some _ => false
  | None => true
  end.

(** get Symbol.prototype.description, rjs_symbol_object_inc.c:341-350 *)
Definition description (s : reg) (a : Z) : option (option Z) := lookup a (live s).

(** rjs_gc_scan_symbol_registry, rjs_symbol.c:113-123, called for the roots by rjs_gc.c:85 *)
Definition roots (s : reg) : list Z := map (fun p => e_sym (snd p)) (by_key s).

(** A run of the collector: the symbols that are neither roots nor otherwise reached
    ([keep]) are freed. *)
Definition collect (s : reg) (keep : list Z) : reg :=
  mkReg (filter (fun p => existsb (Z.eqb (fst p)) (roots s ++ keep)) (live s)) (by_key s) (by_sym s).

(** Steps of a program. *)
Inductive step :=
| SNew (a : Z) (desc : option Z)
| SFor (a k : Z)
| SGc (keep : list Z).

Definition in_use (s : reg) (a : Z) : bool := existsb (Z.eqb a) (map fst (live s)).

(** The allocator never returns memory in use: such steps do not occur and are skipped. *)
Definition do_step (s : reg) (x : step) : option reg :=
  match x with
  | SNew a d => if in_use s a then Some s else Some (symbol_new s a d)
  | SFor a k => if in_use s a then Some s else option_map fst (symbol_for s a k)
  | SGc keep => Some (collect s keep)
  end.

Fixpoint run (s : reg) (l : list step) : option reg :=
  match l with
  | [] => Some s
  | x :: r => match do_step s x with Some s' => run s' r | None => None end
  end.
