(** What JSON text means (RFC 8259), which JSON values are the same, where a value stands
    inside another, and which C++ values have which types: stated without the functions
    of the model. *)
From Coq Require Import String.
From Verif Require Import Base StrModel AttrModel JsonModel.
From Verif Require AttrSpec.
Local Open Scope nat_scope.

(** ** UTF-8 *)
Inductive utf8_char : str -> Prop :=
| u1 a : (0 <= a <= 127)%Z -> utf8_char [a]
| u2 a b : (194 <= a <= 223)%Z -> (128 <= b <= 191)%Z -> utf8_char [a; b]
| u3 a b c : (224 <= a <= 239)%Z -> (128 <= b <= 191)%Z -> (128 <= c <= 191)%Z ->
    (a = 224 -> 160 <= b)%Z -> (a = 237 -> b <= 159)%Z -> utf8_char [a; b; c]
| u4 a b c d : (240 <= a <= 244)%Z -> (128 <= b <= 191)%Z -> (128 <= c <= 191)%Z -> (128 <= d <= 191)%Z ->
    (a = 240 -> 144 <= b)%Z -> (a = 244 -> b <= 143)%Z -> utf8_char [a; b; c; d].
Definition utf8 (s : str) : Prop := exists cs, s = concat cs /\ Forall utf8_char cs.

(** ** The grammar *)
Definition blank (w : str) : Prop := Forall (fun c => In c [32; 9; 10; 13]%Z) w.
Definition digit_value (acc c : Z) : Z := (acc * 10 + (c - 48))%Z.
(** Digits without a leading zero, and the number they mean *)
Definition natural (z : Z) (d : str) : Prop :=
  d <> [] /\ Forall (fun c => (48 <= c <= 57)%Z) d /\ (hd 0%Z d = 48%Z -> d = [48%Z]) /\ z = fold_left digit_value d 0%Z.
Definition decimal (z : Z) (s : str) : Prop := natural z s \/ exists d, s = 45%Z :: d /\ natural (- z)%Z d.
(** A number with a fraction or an exponent: digits, and what follows them *)
Definition digits (d : str) : Prop := d <> [] /\ Forall (fun c => (48 <= c <= 57)%Z) d.
Definition exponent (e : str) : Prop := exists m sign d, e = m :: sign ++ d /\ (m = 101 \/ m = 69)%Z /\ In sign [[]; [43%Z]; [45%Z]] /\ digits d.
Definition real_text (t : str) : Prop := exists sign d f e, t = sign ++ d ++ f ++ e /\ (sign = [] \/ sign = [45%Z]) /\
  digits d /\ (hd 0%Z d = 48%Z -> d = [48%Z]) /\ (f = [] \/ exists f', f = 46%Z :: f' /\ digits f') /\ (e = [] \/ exponent e) /\ f ++ e <> [].
Definition hexit (z c : Z) : Prop := (0 <= z <= 9 /\ c = 48 + z \/ 10 <= z <= 15 /\ (c = 87 + z \/ c = 55 + z))%Z.
(** One character of a string as it is written, and its bytes *)
Inductive char_text : str -> str -> Prop :=
| c_plain c : (32 <= c)%Z -> c <> 34%Z -> c <> 92%Z -> char_text [c] [c]
| c_escape x c : In (x, c) [(34, 34); (92, 92); (47, 47); (98, 8); (102, 12); (110, 10); (114, 13); (116, 9)]%Z -> char_text [92%Z; x] [c]
| c_hex a b x y : (a < 8)%Z -> hexit a x -> hexit b y -> char_text [92; 117; 48; 48; x; y]%Z [(16 * a + b)%Z].
Inductive string_text : str -> str -> Prop :=
| s_end : string_text [] []
| s_char t c ts s : char_text t c -> string_text ts s -> string_text (t ++ ts) (c ++ s).
Inductive reads : str -> json -> Prop :=
| r_blank w t w' j : blank w -> blank w' -> reads t j -> reads (w ++ t ++ w') j
| r_null : reads (lit "null") JNull
| r_true : reads (lit "true") (JBool true)
| r_false : reads (lit "false") (JBool false)
| r_int z t : decimal z t -> reads t (JInt z)
| r_float t : real_text t -> reads t (JFloat t)
| r_str t s : string_text t s -> reads (34%Z :: t ++ [34%Z]) (JStr s)
| r_no_items w : blank w -> reads (lit "[" ++ w ++ lit "]") (JArr [])
| r_items t l : reads_items t l -> reads (lit "[" ++ t ++ lit "]") (JArr l)
| r_no_fields w : blank w -> reads (lit "{" ++ w ++ lit "}") (JObj [])
| r_fields t l : reads_fields t l -> reads (lit "{" ++ t ++ lit "}") (JObj l)
with reads_items : str -> list json -> Prop :=
| ri_one t j : reads t j -> reads_items t [j]
| ri_more t j u l : reads t j -> reads_items u l -> reads_items (t ++ lit "," ++ u) (j :: l)
with reads_fields : str -> list (str * json) -> Prop :=
| rf_one t e : reads_field t e -> reads_fields t [e]
| rf_more t e u l : reads_field t e -> reads_fields u l -> reads_fields (t ++ lit "," ++ u) (e :: l)
with reads_field : str -> str * json -> Prop :=
| rf w k name w' t j : blank w -> blank w' -> string_text k name -> reads t j ->
    reads_field (w ++ 34%Z :: k ++ 34%Z :: w' ++ lit ":" ++ t) (name, j).

(** ** The same value: the order of fields does not matter *)
Inductive same : json -> json -> Prop :=
| same_self j : same j j
| same_arr l l' : same_items l l' -> same (JArr l) (JArr l')
| same_obj l p l' : Permutation l p -> same_fields p l' -> same (JObj l) (JObj l')
with same_items : list json -> list json -> Prop :=
| same_none : same_items [] []
| same_more j j' l l' : same j j' -> same_items l l' -> same_items (j :: l) (j' :: l')
with same_fields : list (str * json) -> list (str * json) -> Prop :=
| same_no_fields : same_fields [] []
| same_more_fields k j j' l l' : same j j' -> same_fields l l' -> same_fields ((k, j) :: l) ((k, j') :: l').

Definition str_le (a b : str) : Prop := a = b \/ AttrSpec.str_lt a b.
(** All strings, and all field names, of a value *)
Inductive inside : json -> json -> Prop :=
| in_self j : inside j j
| in_arr x y l : In x l -> inside y x -> inside y (JArr l)
| in_obj k x y l : In (k, x) l -> inside y x -> inside y (JObj l).
Definition text_ok (j : json) : Prop :=
  (forall s, inside (JStr s) j -> utf8 s) /\ (forall l k x, inside (JObj l) j -> In (k, x) l -> utf8 k) /\
  (forall t, inside (JFloat t) j -> real_text t).
(** Names that need no escapes *)
Definition plain_names (j : json) : Prop :=
  forall l k x, inside (JObj l) j -> In (k, x) l -> Forall (fun c => (32 <= c)%Z /\ c <> 34%Z /\ c <> 92%Z) k.

(** ** Places *)
Inductive key := Name (k : str) | Index (i : nat).
(** [stands j p x]: [x] stands in [j] at [p]. *)
Inductive stands : json -> list key -> json -> Prop :=
| st_here j : stands j [] j
| st_arr l1 x l2 p y : stands x p y -> stands (JArr (l1 ++ x :: l2)) (Index (length l1) :: p) y
| st_obj l k x p y : In (k, x) l -> stands x p y -> stands (JObj l) (Name k :: p) y.
(** What a value is, apart from what it contains *)
Definition shape (j : json) : json := match j with JArr l => JArr (map (fun _ => JNull) l) | JObj _ => JObj [] | _ => j end.

(** ** Types *)
Inductive key_type : ty -> Prop :=
| kt_bool : key_type TBool | kt_int lo hi : (lo <= hi)%Z -> key_type (TInt lo hi) | kt_str : key_type TStr
| kt_enum table : NoDup (map fst table) -> key_type (TEnum table).
Definition nullable (t : ty) : Prop := match t with TOpt _ | TJson => True | _ => False end.
(** Types whose values can be read back: no variants, no C strings, optionals only of what is
    never null, distinct field names; a record that leaves out empty optionals has them empty at first. *)
Inductive restorable : ty -> Prop :=
| rs_key t : key_type t -> restorable t
| rs_real : restorable TReal
| rs_json : restorable TJson
| rs_opt t : restorable t -> ~ nullable t -> restorable (TOpt t)
| rs_vec t : restorable t -> restorable (TVec t)
| rs_set t : key_type t -> restorable (TSet t)
| rs_pair s a b : lit s <> lit "first" -> restorable a -> restorable b -> restorable (TPair s a b)
| rs_map k t : key_type k -> restorable t -> restorable (TMap k t)
| rs_str_map t : restorable t -> restorable (TStrMap t)
| rs_rec skip fs : NoDup (map fst fs) -> (forall n d t, In (n, (d, t)) fs -> restorable t) ->
    (skip = true -> forall n d t, In (n, (d, TOpt t)) fs -> d = VNone) -> restorable (TRec skip fs).
(** The values of a type *)
Inductive typed : ty -> val -> Prop :=
| ty_bool b : typed TBool (VBool b)
| ty_int lo hi z : (lo <= z <= hi)%Z -> typed (TInt lo hi) (VInt z)
| ty_real t : typed TReal (VReal t)
| ty_str s : typed TStr (VStr s)
| ty_json j : typed TJson (VJson j)
| ty_enum table n z : In (n, z) table -> typed (TEnum table) (VInt z)
| ty_none t : typed (TOpt t) VNone
| ty_some t v : typed t v -> typed (TOpt t) (VSome v)
| ty_vec t l : (forall v, In v l -> typed t v) -> typed (TVec t) (VList l)
| ty_set t l : (forall v, In v l -> typed t v) -> NoDup l -> typed (TSet t) (VList l)
| ty_pair s a b x y : typed a x -> typed b y -> typed (TPair s a b) (VPair x y)
| ty_map k t l : (forall x y, In (x, y) l -> typed k x /\ typed t y) -> NoDup (map fst l) -> typed (TMap k t) (VMap l)
| ty_str_map t l : (forall x y, In (x, y) l -> typed t y) -> StronglySorted AttrSpec.str_lt (map fst l) ->
    typed (TStrMap t) (VMap (map (fun e => (VStr (fst e), snd e)) l))
| ty_rec skip fs l : fields_typed fs l -> typed (TRec skip fs) (VRec l)
with fields_typed : list (str * (val * ty)) -> list val -> Prop :=
| ft_none : fields_typed [] []
| ft_more n d t fs v l : typed t v -> fields_typed fs l -> fields_typed ((n, (d, t)) :: fs) (v :: l).
