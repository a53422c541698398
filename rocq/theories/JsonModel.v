(** JSON: src/hstd/stdlib/Json.cpp, JsonSerde.hpp, OptSerde.hpp, MapSerde.hpp,
    SetSerde.hpp, IntSetSerde.hpp, VariantSerde.hpp.

    Simplified: values of the JSON library are trees; the fields of an object are a list
    sorted by key (std::map); a number that is no integer is the text the library writes
    for it; an int does not overflow. *)
From Coq Require Import String.
From Verif Require Import Base StrModel AttrModel.
Local Open Scope nat_scope.

Inductive json :=
| JNull
| JBool (b : bool)
| JInt (z : Z)
| JFloat (text : str)
| JStr (s : str)
| JArr (l : list json)
| JObj (l : list (str * json)).

(** Outcomes of all elements *)
Fixpoint all_ok {A} (l : list (outcome A)) : outcome (list A) :=
  match l with [] => Ok [] | x :: l' => obind x (fun v => omap (cons v) (all_ok l')) end.

(** ** The library's writer *)
(** nlohmann::json::dump: decimal digits *)
Fixpoint dec_digits (fuel : nat) (z : Z) (acc : str) : str :=
  match fuel with
  | O => acc
  | S f => let acc := (48 + z mod 10)%Z :: acc in if (z <? 10)%Z then acc else dec_digits f (z / 10)%Z acc
  end.
Definition int_text (z : Z) : str :=
  if (z <? 0)%Z then 45%Z :: dec_digits (S (Z.to_nat (- z))) (- z)%Z [] else dec_digits (S (Z.to_nat z)) z [].
(** One character of a string *)
Definition hex (z : Z) : byte := if (z <? 10)%Z then (48 + z)%Z else (87 + z)%Z.
Definition escape (c : byte) : str :=
  if (c =? 34)%Z then lit "\""" else if (c =? 92)%Z then lit "\\"
  else if (c =? 8)%Z then lit "\b" else if (c =? 9)%Z then lit "\t" else if (c =? 10)%Z then lit "\n"
  else if (c =? 12)%Z then lit "\f" else if (c =? 13)%Z then lit "\r"
  else if (c <? 32)%Z then lit "\u00" ++ [hex (c / 16); hex (c mod 16)] else [c].
Definition quote (s : str) : str := 34%Z :: flat_map escape s ++ [34%Z].
(** The first character in UTF-8, and what comes after it; [None] with the rest from which
    the writer goes on when it is told to ignore errors. *)
Definition within (b lo hi : Z) : bool := (lo <=? b)%Z && (b <=? hi)%Z.
Fixpoint conts (n : nat) (lo hi : Z) (taken s : str) : option str * str :=
  match n with
  | O => (Some taken, s)
  | S n' => match s with
            | c :: s' => if within c lo hi then conts n' 128 191 (taken ++ [c]) s' else (None, s)
            | [] => (None, [])
            end
  end.
Definition one_char (b : byte) (s : str) : option str * str :=
  if within b 0 127 then (Some [b], s)
  else if within b 194 223 then conts 1 128 191 [b] s
  else if (b =? 224)%Z then conts 2 160 191 [b] s
  else if (b =? 237)%Z then conts 2 128 159 [b] s
  else if within b 225 239 then conts 2 128 191 [b] s
  else if (b =? 240)%Z then conts 3 144 191 [b] s
  else if within b 241 243 then conts 3 128 191 [b] s
  else if (b =? 244)%Z then conts 3 128 143 [b] s
  else (None, s).
(** The characters that are valid, and whether all were *)
Fixpoint valid_chars (fuel : nat) (s : str) : str * bool :=
  match fuel, s with
  | S f, b :: s' => let (c, rest) := one_char b s' in
                    let (t, ok) := valid_chars f rest in
                    match c with Some x => (x ++ t, ok) | None => (t, false) end
  | _, _ => ([], true)
  end.
Definition readable (s : str) : bool := snd (valid_chars (length s) s).
Definition ignoring (s : str) : str := fst (valid_chars (length s) s).
(** dump() with the default error handler: throws for text that is not UTF-8. *)
Definition dump_str (s : str) : outcome str := if readable s then Ok (quote s) else Throw.
Fixpoint dump (j : json) : outcome str :=
  match j with
  | JNull => Ok (lit "null")
  | JBool true => Ok (lit "true")
  | JBool false => Ok (lit "false")
  | JInt z => Ok (int_text z)
  | JFloat t => Ok t
  | JStr s => dump_str s
  | JArr l => omap (fun ts => lit "[" ++ join (lit ",") ts ++ lit "]") (all_ok (map dump l))
  | JObj l => omap (fun ts => lit "{" ++ join (lit ",") ts ++ lit "}")
                (all_ok (map (fun e => obind (dump_str (fst e)) (fun k => omap (fun t => k ++ lit ":" ++ t) (dump (snd e)))) l))
  end.

(** ** to_compact_json *)
(** Json.hpp:16-21 JsonFormatOptions *)
Record options := Options { owidth : Z; oindent : Z; ostart : Z; ostable : bool }.
(** std::string(indent, ' '): a negative count is a huge one, which throws. *)
Definition spaces_of (n : Z) : outcome str := if (n <? 0)%Z then Throw else Ok (repeat 32%Z (Z.to_nat n)).
Section Compact.
  (** Json.cpp:18-26 getSize: the length of the text with line breaks; kept by the hash of
      the value, so that values with one hash have one size.  Nothing depends on what it is. *)
  Variable size : json -> Z.
  Variable o : options.
  (** Json.cpp:76-85: std::sort of the fields; which of two equal fields comes first is not determined. *)
  Fixpoint place {A} (lt : A -> A -> bool) (x : A) (l : list A) : list A :=
    match l with [] => [x] | y :: l' => if lt x y then x :: l else y :: place lt x l' end.
  Definition sort_by {A} (lt : A -> A -> bool) (l : list A) : list A := fold_right (place lt) [] l.
  Definition before (a b : (str * json) * str) : bool :=
    if ostable o then str_ltb (fst (fst a)) (fst (fst b)) else (size (snd (fst a)) <? size (snd (fst b)))%Z.
  (** Json.cpp:28-103 format; the texts of the fields are computed before they are sorted, which gives the same. *)
  Fixpoint compact (indent : Z) (j : json) {struct j} : outcome str :=
    if (size j <? owidth o - indent)%Z then dump j
    else match j with
         | JStr s => Ok (quote (ignoring s))
         | JBool _ | JInt _ | JFloat _ => dump j
         | JArr l =>
             obind (all_ok (map (fun x => obind (spaces_of indent) (fun sp => omap (fun t => lit "
" ++ sp ++ t) (compact (indent + oindent o) x))) l)) (fun ts =>
             Ok (lit "[" ++ join (lit ",") ts ++ lit "]"))
         | JObj l =>
             obind (all_ok (map (fun e => obind (spaces_of indent) (fun sp => omap (fun t => (e, lit "
" ++ sp ++ lit """" ++ fst e ++ lit """: " ++ t)) (compact (indent + oindent o) (snd e)))) l)) (fun ts =>
             Ok (lit "{" ++ join (lit ",") (map snd (sort_by before ts)) ++ lit "}"))
         | JNull => Ok []
         end.
  (** Json.cpp:16-107 *)
  Definition to_compact_json (j : json) : outcome str := compact (ostart o) j.
End Compact.

(** ** filterFields *)
(** Json.cpp:109-123 *)
Fixpoint filter_fields (names : list str) (j : json) : json :=
  match j with
  | JObj l => JObj (flat_map (fun e => if existsb (str_eqb (fst e)) names then [] else [(fst e, filter_fields names (snd e))]) l)
  | JArr l => JArr (map (filter_fields names) l)
  | _ => j
  end.

(** ** Values and types *)
(** A C++ value: [VSome]/[VNone] of an optional or pointer, [VList] of a vector or set,
    [VMap] of a map in iteration order, [VRec] the fields of a record, bases first,
    [VAlt] the alternative of a variant. *)
Inductive val :=
| VBool (b : bool) | VInt (z : Z) | VReal (t : str) | VStr (s : str) | VNone | VSome (v : val)
| VList (l : list val) | VPair (a b : val) | VMap (l : list (val * val)) | VRec (l : list val)
| VAlt (i : nat) (v : val) | VJson (j : json).
(** A type for which JsonSerde is defined.  [TInt lo hi]: an integer type with this range;
    [TPair s]: Pair, Slice or HSlice, whose second field is called [s];
    [TRec skip]: a described record, [skip] for JsonSerdeDescribedRecordBaseEx; each field
    with its name and the value it has in a new record. *)
Inductive ty :=
| TBool | TInt (lo hi : Z) | TReal | TStr | TCStr | TJson | TEnum (table : list (str * Z))
| TOpt (t : ty) | TVec (t : ty) | TSet (t : ty) | TPair (second : string) (a b : ty) | TMap (k v : ty) | TStrMap (v : ty)
| TRec (skip : bool) (fields : list (str * (val * ty))) | TVar (alts : list ty).

(** json::operator[] of an object that may change: std::map::operator[] *)
Fixpoint put (l : list (str * json)) (k : str) (j : json) : list (str * json) :=
  match l with
  | [] => [(k, j)]
  | (k', j') :: l' => if str_eqb k' k then (k', j) :: l' else if str_ltb k k' then (k, j) :: l else (k', j') :: put l' k j
  end.
(** reflection.hpp:204-207 *)
Definition enum_name (table : list (str * Z)) (z : Z) : str :=
  match List.find (fun e => (snd e =? z)%Z) table with Some e => fst e | None => lit "<unnamed>" end.

(** JsonSerde<T>::to_json: JsonSerde.hpp:13-279, OptSerde.hpp:10-16, MapSerde.hpp:9-20, SetSerde.hpp:10-15,
    VariantSerde.hpp:12-22.  A value that is not of the type gives null. *)
Fixpoint to_json (t : ty) (v : val) {struct t} : json :=
  match t, v with
  | TBool, VBool b => JBool b
  | TInt _ _, VInt z => JInt z
  | TReal, VReal t => JFloat t
  | TStr, VStr s | TCStr, VStr s => JStr s
  | TJson, VJson j => j
  | TEnum table, VInt z => JStr (enum_name table z)
  | TOpt t, VNone => JNull
  | TOpt t, VSome v => to_json t v
  | TVec t, VList l | TSet t, VList l => JArr (map (to_json t) l)
  | TPair s a b, VPair x y => JObj (put (put [] (lit "first") (to_json a x)) (lit s) (to_json b y))
  | TMap k t, VMap l => JArr (map (fun e => JObj (put (put [] (lit "key") (to_json k (fst e))) (lit "value") (to_json t (snd e)))) l)
  | TStrMap t, VMap l => JObj (fold_left (fun o e => match fst e with VStr k => put o k (to_json t (snd e)) | _ => o end) l [])
  | TRec skip fs, VRec l =>
      JObj ((fix go (fs : list (str * (val * ty))) (l : list val) (o : list (str * json)) : list (str * json) :=
               match fs, l with
               | (n, (_, t)) :: fs', v :: l' =>
                   (* 247-254: written when it is not nil or not empty *)
                   go fs' l' (if skip && match v with VNone => true | _ => false end then o else put o n (to_json t v))
               | _, _ => o
               end) fs l [])
  | TVar ts, VAlt i v => JObj (put (put [] (lit "index") (JInt (Z.of_nat i))) (lit "value")
      ((fix go (ts : list ty) (i : nat) : json :=
          match ts, i with t :: _, O => to_json t v | _ :: ts', S i' => go ts' i' | [], _ => JNull end) ts i))
  | _, _ => JNull
  end.

(** The elements a loop over a value visits: an object's values, nothing for null, else the value itself. *)
Definition elements (j : json) : list json :=
  match j with JArr l => l | JObj l => map snd l | JNull => [] | _ => [j] end.
(** operator[] of a constant value: a missing key is undefined, a value that is no object throws. *)
Definition field (j : json) (k : str) : outcome json :=
  match j with JObj l => match lookup l k with Some x => Ok x | None => UB end | _ => Throw end.
(** get<T> of an integer type: static_cast. *)
Definition cast (lo hi z : Z) : Z := (lo + (z - lo) mod (hi - lo + 1))%Z.
(** Equality of keys; only keys of these kinds are used. *)
Definition same_key (a b : val) : bool :=
  match a, b with
  | VBool x, VBool y => Bool.eqb x y
  | VInt x, VInt y => (x =? y)%Z
  | VStr x, VStr y => str_eqb x y
  | _, _ => false
  end.
Fixpoint insert_or_assign (m : list (val * val)) (k v : val) : list (val * val) :=
  match m with
  | [] => [(k, v)]
  | (k', v') :: m' => if same_key k' k then (k', v) :: m' else (k', v') :: insert_or_assign m' k v
  end.
Definition incl (l : list val) (v : val) : list val := if existsb (fun x => same_key x v) l then l else l ++ [v].

(** JsonSerde<T>::from_json.  A number that is no integer, read as one, and an integer read
    as a real number are not modelled and throw; nor is an array read as a map of strings. *)
Fixpoint from_json (t : ty) (j : json) {struct t} : outcome val :=
  match t with
  | TBool => match j with JBool b => Ok (VBool b) | _ => Throw end
  | TInt lo hi => match j with JInt z => Ok (VInt (cast lo hi z)) | _ => Throw end
  | TReal => match j with JFloat t => Ok (VReal t) | _ => Throw end
  | TStr => match j with JStr s => Ok (VStr s) | _ => Throw end
  | TCStr => Ok VNone (* 120: nullptr *)
  | TJson => Ok (VJson j)
  | TEnum table => match j with
                   | JStr s => match List.find (fun e => str_eqb (fst e) s) table with Some e => Ok (VInt (snd e)) | None => Throw end
                   | _ => Throw
                   end
  | TOpt t => match j with JNull => Ok VNone | _ => omap VSome (from_json t j) end
  | TVec t => omap VList (all_ok (map (from_json t) (elements j)))
  | TSet t => omap (fun l => VList (fold_left incl l [])) (all_ok (map (from_json t) (elements j)))
  | TPair s a b => obind (obind (field j (lit "first")) (from_json a)) (fun x => omap (VPair x) (obind (field j (lit s)) (from_json b)))
  | TMap k t => omap (fun l => VMap (fold_left (fun m e => insert_or_assign m (fst e) (snd e)) l []))
      (all_ok (map (fun i => obind (obind (field i (lit "key")) (from_json k)) (fun x => omap (pair x) (obind (field i (lit "value")) (from_json t)))) (elements j)))
  | TStrMap t => match j with
                 | JObj l => omap VMap (all_ok (map (fun e => omap (pair (VStr (fst e))) (from_json t (snd e))) l))
                 | JNull => Ok (VMap [])
                 | _ => Throw
                 end
  | TRec _ fs =>
      omap VRec ((fix go (fs : list (str * (val * ty))) : outcome (list val) :=
        match fs with
        | [] => Ok []
        | (n, (d, t)) :: fs' =>
            obind (match j with
                   | JObj l => match lookup l n with Some x => from_json t x | None => Ok d end
                   | _ => Ok d
                   end) (fun v => omap (cons v) (go fs'))
        end) fs)
  | TVar _ => UB (* VariantSerde.hpp:23-28: the function ends without returning the value *)
  end.
