(** Specification: %ForInIteratorPrototype%.next of ECMA-262, and what it
    amounts to for objects that do not change. *)
From Coq Require Import List ZArith Bool.
Import ListNotations.
From Verif Require Import ForInModel.
Local Open Scope Z_scope.

(** [[Object]], [[ObjectWasVisited]], [[RemainingKeys]], [[VisitedKeys]] *)
Record siter := mkS { s_obj : option Z; s_was : bool; s_rem : list (list Z); s_vis : list (list Z) }.

Definition s_new (o : option Z) : siter := mkS o (match o with None => true | _ => false end) [] [].

Definition name_dec : forall a b : list Z, {a = b} + {a <> b} := list_eq_dec Z.eq_dec.
Definition member (s : list Z) (l : list (list Z)) : bool := if in_dec name_dec s l then true else false.

(** the String keys of a list of keys *)
Fixpoint strings (ks : list key) : list (list Z) :=
  match ks with
  | [] => []
  | Sym _ :: r => strings r
  | k :: r => name k :: strings r
  end.

Inductive sscan :=
| SFound (s : list Z) (rem vis : list (list Z)) (a : list answer) (q : list query)
| SFell (vis : list (list Z)) (a : list answer) (q : list query)
| SStop (o : out) (q : list query).

(** step 2.b *)
Fixpoint s_scan (o : Z) (rem vis : list (list Z)) (a : list answer) (q : list query) : sscan :=
  match rem with
  | [] => SFell vis a q
  | s :: rem =>
      if member s vis then s_scan o rem vis a q
      else
        let q := q ++ [QDesc o s] in
        match a with
        | Err :: _ => SStop Threw q
        | Desc None :: a => s_scan o rem vis a q
        | Desc (Some e) :: a =>
            if e then SFound s rem (vis ++ [s]) a q else s_scan o rem (vis ++ [s]) a q
        | _ => SStop Wait q
        end
  end.

Fixpoint s_next (fuel : nat) (i : siter) (a : list answer) (q : list query)
  : out * siter * list answer * list query :=
  match fuel with
  | O => (Fuel, i, a, q)
  | S fuel =>
      match s_obj i with
      | None => (Done, i, a, q)
      | Some o =>
          let go (rem : list (list Z)) a q :=
            match s_scan o rem (s_vis i) a q with
            | SStop w q => (w, i, a, q)
            | SFound s rem vis a q => (Yield s, mkS (Some o) true rem vis, a, q)
            | SFell vis a q =>
                match a with
                | Proto p :: a => s_next fuel (mkS p false [] vis) a (q ++ [QProto o])
                | Err :: _ => (Threw, i, a, q ++ [QProto o])
                | _ => (Wait, i, a, q ++ [QProto o])
                end
            end in
          if s_was i then go (s_rem i) a q
          else
            match a with
            | Keys ks :: a => go (strings ks) a (q ++ [QKeys o])
            | Err :: _ => (Threw, i, a, q ++ [QKeys o])
            | _ => (Wait, i, a, q ++ [QKeys o])
            end
      end
  end.

Fixpoint s_run (fuel : nat) (i : siter) (a : list answer) (q : list query)
  : list (list Z) * out * list query :=
  match fuel with
  | O => ([], Fuel, q)
  | S fuel' =>
      match s_next fuel i a q with
      | (Yield s, i, a, q) =>
          let '(l, o, q) := s_run fuel' i a q in (s :: l, o, q)
      | (o, _, _, q) => ([], o, q)
      end
  end.

Definition s_for_in (o : option Z) (a : list answer) : list (list Z) * out * list query :=
  s_run (S (length a)) (s_new o) a [].

(** Keys as objects list them: index strings are array indices, and every
    symbol comes after every string. *)
Definition key_ok (k : key) : Prop :=
  match k with Idx n => 0 <= n < 0xffffffff | _ => True end.
Fixpoint symbols_last (ks : list key) : Prop :=
  match ks with
  | [] => True
  | Sym _ :: r => Forall (fun k => exists y, k = Sym y) r
  | _ :: r => symbols_last r
  end.

(** all keys that are listed *)
Fixpoint listed (a : list answer) : list key :=
  match a with
  | [] => []
  | Keys ks :: a => ks ++ listed a
  | _ :: a => listed a
  end.
Definition lists_ok (a : list answer) : Prop :=
  forall ks, In (Keys ks) a -> symbols_last ks /\ Forall key_ok ks.

(** No index string is listed after another string. *)
Fixpoint index_first (ks : list key) : Prop :=
  match ks with
  | [] => True
  | Str _ :: r => (forall n, ~ In (Idx n) r) /\ index_first r
  | _ :: r => index_first r
  end.
(** No name is listed both as an index string and as another string. *)
Definition one_form (ks : list key) : Prop :=
  forall n s, In (Idx n) ks -> In (Str s) ks -> s <> name (Idx n).

(** Objects that do not change: a chain of objects, each with its properties
    in order and whether they are enumerable.  [replies] is what they answer to
    the questions, [expected] the names of the loop. *)
Definition props := list (key * bool).
Fixpoint descs (seen : list (list Z)) (p : props) : list answer :=
  match p with
  | [] => []
  | (Sym _, _) :: p => descs seen p
  | (k, e) :: p => if member (name k) seen then descs seen p else Desc (Some e) :: descs seen p
  end.
Fixpoint replies (id : Z) (seen : list (list Z)) (c : list props) : list answer :=
  match c with
  | [] => []
  | p :: c =>
      Keys (map fst p) :: descs seen p ++
      Proto (match c with [] => None | _ => Some (id + 1) end) ::
      replies (id + 1) (seen ++ strings (map fst p)) c
  end.
Fixpoint expected (seen : list (list Z)) (c : list props) : list (list Z) :=
  match c with
  | [] => []
  | p :: c =>
      strings (map fst (filter (fun x => snd x && negb (member (name (fst x)) seen)) p)) ++
      expected (seen ++ strings (map fst p)) c
  end.
Definition object_ok (p : props) : Prop :=
  NoDup (strings (map fst p)) /\ symbols_last (map fst p) /\ Forall key_ok (map fst p).

(** The truthful answer of such objects, numbered from 0, to a question. *)
Definition hits (s : list Z) (x : key * bool) : bool :=
  match fst x with Sym _ => false | k => if name_dec (name k) s then true else false end.
Definition truth (c : list props) (q : query) : answer :=
  match q with
  | QKeys o => Keys (map fst (nth (Z.to_nat o) c []))
  | QDesc o s =>
      Desc (option_map snd (find (hits s) (nth (Z.to_nat o) c [])))
  | QProto o =>
      Proto (if Nat.ltb (S (Z.to_nat o)) (length c) then Some (o + 1) else None)
  end.
