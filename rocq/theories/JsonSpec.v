(** JSON (ECMA-404 / RFC 8259) as a grammar over UTF-16 text, independent of the
    parser model; only the value type [jval] is shared. *)
From Coq Require Import List ZArith Bool String.
From Verif Require Import StrModel JsonModel.
Import ListNotations.
Local Open Scope Z_scope.

Definition ws (c : Z) : Prop := c = 9 \/ c = 10 \/ c = 13 \/ c = 32.
Definition digit (c : Z) : Prop := 48 <= c <= 57.

(** Hexadecimal digits and their values *)
Definition hexd (c n : Z) : Prop :=
  (48 <= c <= 57 /\ n = c - 48) \/ (97 <= c <= 102 /\ n = c - 87) \/ (65 <= c <= 70 /\ n = c - 55).

(** The two-character escapes and what they stand for *)
Definition short_escape (c w : Z) : Prop :=
  In (c, w) [(34, 34); (92, 92); (47, 47); (98, 8); (102, 12); (110, 10); (114, 13); (116, 9)].

(** [chars t v]: the text [t] between the quotes stands for the string [v] *)
Inductive chars : str -> str -> Prop :=
| C_nil : chars [] []
| C_plain c t v : 0x20 <= c <= 0xffff -> c <> 34 -> c <> 92 -> chars t v -> chars (c :: t) (c :: v)
| C_short c w t v : short_escape c w -> chars t v -> chars (92 :: c :: t) (w :: v)
| C_hex a b c d a' b' c' d' t v :
    hexd a a' -> hexd b b' -> hexd c c' -> hexd d d' -> chars t v ->
    chars (92 :: 117 :: a :: b :: c :: d :: t) (4096 * a' + 256 * b' + 16 * c' + d' :: v).

(** A string literal *)
Definition literal (t v : str) : Prop := exists b, t = [34] ++ b ++ [34] /\ chars b v.

(** Numbers without their sign *)
Definition digits1 (t : str) : Prop := t <> [] /\ Forall digit t.
Definition int_part (t : str) : Prop :=
  t = [48] \/ exists d r, t = d :: r /\ 49 <= d <= 57 /\ Forall digit r.
Definition frac_part (t : str) : Prop := t = [] \/ exists r, t = 46 :: r /\ digits1 r.
Definition exp_part (t : str) : Prop :=
  t = [] \/ exists e s r, t = e :: s ++ r /\ (e = 101 \/ e = 69) /\ (s = [] \/ s = [43] \/ s = [45]) /\ digits1 r.
Definition number (t : str) : Prop :=
  exists i f e, t = i ++ f ++ e /\ int_part i /\ frac_part f /\ exp_part e.

Definition spaces (w : str) : Prop := Forall ws w.

(** The properties of an object given its members in order: a repeated key replaces the
    value and keeps the place of the first one *)
Definition set_member (l : list (str * jval)) (kv : str * jval) : list (str * jval) :=
  if existsb (fun p => if list_eq_dec Z.eq_dec (fst p) (fst kv) then true else false) l
  then map (fun p => if list_eq_dec Z.eq_dec (fst p) (fst kv) then (fst p, snd kv) else p) l
  else l ++ [kv].
Definition properties (ms : list (str * jval)) : list (str * jval) := fold_left set_member ms [].

Inductive value : str -> jval -> Prop :=
| V_null : value (zs "null") JNull
| V_true : value (zs "true") (JBool true)
| V_false : value (zs "false") (JBool false)
| V_num t : number t -> value t (JNum false 10 t)
| V_neg t : number t -> value (45 :: t) (JNum true 10 t)
| V_str t v : literal t v -> value t (JStr v)
| V_arr0 w : spaces w -> value ([91] ++ w ++ [93]) (JArr [])
| V_arr t l : elements t l -> value ([91] ++ t ++ [93]) (JArr l)
| V_obj0 w : spaces w -> value ([123] ++ w ++ [125]) (JObj [])
| V_obj t l : members t l -> value ([123] ++ t ++ [125]) (JObj (properties l))
with elements : str -> list jval -> Prop :=
| E_one w1 t v w2 : spaces w1 -> value t v -> spaces w2 -> elements (w1 ++ t ++ w2) [v]
| E_more w1 t v w2 t' l : spaces w1 -> value t v -> spaces w2 -> elements t' l ->
    elements (w1 ++ t ++ w2 ++ [44] ++ t') (v :: l)
with members : str -> list (str * jval) -> Prop :=
| M_one w1 k n w2 w3 t v w4 : spaces w1 -> literal k n -> spaces w2 -> spaces w3 -> value t v -> spaces w4 ->
    members (w1 ++ k ++ w2 ++ [58] ++ w3 ++ t ++ w4) [(n, v)]
| M_more w1 k n w2 w3 t v w4 t' l :
    spaces w1 -> literal k n -> spaces w2 -> spaces w3 -> value t v -> spaces w4 -> members t' l ->
    members (w1 ++ k ++ w2 ++ [58] ++ w3 ++ t ++ w4 ++ [44] ++ t') ((n, v) :: l).

(** A JSON text and its value *)
Definition json_text (t : str) (v : jval) : Prop :=
  exists w1 b w2, t = w1 ++ b ++ w2 /\ spaces w1 /\ value b v /\ spaces w2.

(** What the proofs need of ICU's identifier classes: their ASCII part *)
Definition letter (c : Z) : bool := ((97 <=? c) && (c <=? 122)) || ((65 <=? c) && (c <=? 90)).
Definition id_classes (ids idc : Z -> bool) : Prop :=
  ids (-1) = false /\ idc (-1) = false /\
  forall c, 0 <= c < 128 ->
    ids c = letter c || (c =? 36) || (c =? 95) /\
    idc c = letter c || ((48 <=? c) && (c <=? 57)) || (c =? 36) || (c =? 95).

(** The token grammar that the parser really accepts *)
Definition rname (n : str) (v : jval) : Prop :=
  (n = zs "null" /\ v = JNull) \/ (n = zs "true" /\ v = JBool true) \/ (n = zs "false" /\ v = JBool false) \/
  (n = zs "Infinity" /\ v = JInf false) \/ (n = zs "NaN" /\ v = JNaN).
(** an operand of a sign *)
Inductive rsigned : token -> jval -> Prop :=
| RS_num b x : rsigned (TNumber b x) (JNum false b x)
| RS_big b x : rsigned (TBigInt b x) (JBig b x)
| RS_inf : rsigned (TIdentifier (zs "Infinity")) (JInf false)
| RS_nan : rsigned (TIdentifier (zs "NaN")) JNaN.
Inductive rneg : jval -> jval -> Prop :=
| RN_num b x : rneg (JNum false b x) (JNum true b x)
| RN_inf : rneg (JInf false) (JInf true)
| RN_nan : rneg JNaN JNaN.
Inductive rvalue : list token -> jval -> Prop :=
| R_name n v : rname n v -> rvalue [TIdentifier n] v
| R_str s : rvalue [TString s] (JStr s)
| R_num b x : rvalue [TNumber b x] (JNum false b x)
| R_big b x : rvalue [TBigInt b x] (JBig b x)
| R_plus t v : rsigned t v -> rvalue [TPlus; t] v
| R_minus t v v' : rsigned t v -> rneg v v' -> rvalue [TMinus; t] v'
| R_arr t l : relements t l -> rvalue (TLbracket :: t) (JArr l)
| R_obj t l : rmembers t l -> rvalue (TLbrace :: t) (JObj (properties l))
(** the rest of an array: elements separated and optionally ended by a comma, then the bracket *)
with relements : list token -> list jval -> Prop :=
| RE_end : relements [TRbracket] []
| RE_last t v : rvalue t v -> relements (t ++ [TRbracket]) [v]
| RE_more t v t' l : rvalue t v -> relements t' l -> relements (t ++ TComma :: t') (v :: l)
with rmembers : list token -> list (str * jval) -> Prop :=
| RM_end : rmembers [TRbrace] []
| RM_last k n t v : k = TString n \/ k = TIdentifier n -> rvalue t v ->
    rmembers (k :: TColon :: t ++ [TRbrace]) [(n, v)]
| RM_more k n t v t' l : k = TString n \/ k = TIdentifier n -> rvalue t v -> rmembers t' l ->
    rmembers (k :: TColon :: t ++ TComma :: t') ((n, v) :: l).

(** Number text of the serializer: optional sign and a JSON number *)
Definition signed_number (t : str) (neg : bool) (u : str) : Prop :=
  t = (if neg then 45 :: u else u) /\ number u.

(** The value that the text of a serialized tree stands for ([None]: nothing is written) *)
Inductive denotes : sval -> option jval -> Prop :=
| D_null : denotes SNull (Some JNull)
| D_bool b : denotes (SBool b) (Some (JBool b))
| D_fin t n u : signed_number t n u -> denotes (SNumber true t) (Some (JNum n 10 u))
| D_inf t : denotes (SNumber false t) (Some JNull)
| D_str s : Forall (fun c => 0 <= c <= 0xffff) s -> denotes (SString s) (Some (JStr s))
| D_arr l vs : denotes_list l vs -> denotes (SArr l) (Some (JArr vs))
| D_obj l ms : denotes_members l ms -> denotes (SObj l) (Some (JObj (properties ms)))
| D_undef : denotes SUndef None
with denotes_list : list sval -> list jval -> Prop :=
| DL_nil : denotes_list [] []
| DL_some x l v vs : denotes x (Some v) -> denotes_list l vs -> denotes_list (x :: l) (v :: vs)
| DL_none x l vs : denotes x None -> denotes_list l vs -> denotes_list (x :: l) (JNull :: vs)
with denotes_members : list (str * sval) -> list (str * jval) -> Prop :=
| DM_nil : denotes_members [] []
| DM_some k x l v vs : Forall (fun c => 0 <= c <= 0xffff) k ->
    denotes x (Some v) -> denotes_members l vs -> denotes_members ((k, x) :: l) ((k, v) :: vs)
| DM_none k x l vs : denotes x None -> denotes_members l vs -> denotes_members ((k, x) :: l) vs.

(** QuoteJSONString, ECMA-262 25.5.4.3, on code units: [quoted s t] *)
Definition named_escape (c w : Z) : Prop :=
  In (c, w) [(8, 98); (9, 116); (10, 110); (12, 102); (13, 114); (34, 34); (92, 92)].
Definition surrogate (c : Z) : Prop := 0xd800 <= c <= 0xdfff.
(** lower case hexadecimal digits *)
Definition hexl (c n : Z) : Prop := (48 <= c <= 57 /\ n = c - 48) \/ (97 <= c <= 102 /\ n = c - 87).
Definition starts_with_trailing (s : str) : Prop := exists c r, s = c :: r /\ 0xdc00 <= c <= 0xdfff.
Inductive quoted : str -> str -> Prop :=
| Q_nil : quoted [] []
| Q_named c w s t : named_escape c w -> quoted s t -> quoted (c :: s) (92 :: w :: t)
| Q_plain c s t : 0x20 <= c <= 0xffff -> c <> 34 -> c <> 92 -> ~ surrogate c -> quoted s t -> quoted (c :: s) (c :: t)
| Q_pair h l s t : 0xd800 <= h <= 0xdbff -> 0xdc00 <= l <= 0xdfff -> quoted s t -> quoted (h :: l :: s) (h :: l :: t)
| Q_hex c s t a b d e a' b' d' e' :
    (0 <= c < 0x20 /\ (forall w, ~ named_escape c w)) \/
    (0xd800 <= c <= 0xdbff /\ ~ starts_with_trailing s) \/ 0xdc00 <= c <= 0xdfff ->
    hexl a a' -> hexl b b' -> hexl d d' -> hexl e e' -> c = 4096 * a' + 256 * b' + 16 * d' + e' ->
    quoted s t -> quoted (c :: s) (92 :: 117 :: a :: b :: d :: e :: t).

(** Text that is well formed UTF-16 without control characters *)
Inductive clean : str -> Prop :=
| CL_nil : clean []
| CL_unit c t : 0x20 <= c <= 0xffff -> ~ surrogate c -> clean t -> clean (c :: t)
| CL_pair h l t : 0xd800 <= h <= 0xdbff -> 0xdc00 <= l <= 0xdfff -> clean t -> clean (h :: l :: t).
