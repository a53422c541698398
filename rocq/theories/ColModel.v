(** Column views: the grammar of #+columns: and its writing, src/haxorg/sem/SemConvert.cpp:2302-2408 and
    SemOrgFormat.cpp:204-270, 755-758.

    Simplified: lexy is not in the repository and modelled after its documentation: identifiers take one or more
    characters, opt with peek looks at one character, and what follows the match of the rule is not looked at. A text on
    which the grammar fails is [None]; that lexy may go on after an error is not modelled. *)
From Coq Require Import String.
From Verif Require Import Base StrModel ConvModel.
From Verif Require TimeModel.
Local Open Scope Z_scope.

(** ColumnView, SemOrgSharedTypes.hpp:767-820; formatDigits and formatPrecision are never set. *)
Inductive check := IfAllNested | FractionRec | PercentRec.
Inductive math := Min | Max | Mean | Sum | LowHighEst.
Inductive summary := Check (k : check) | Math (k : math).
Record column := Column { cwidth : option Z; cprop : option str; ctitle : option str; csum : option summary }.

Definition eqs (s : str) (w : string) : bool := AttrModel.str_eqb s (lit w).
(** aggregate, 2304-2330; [type res] holds the first alternative with its first value, as std::variant makes it *)
Definition summary_of (agg : str) : summary :=
  if eqs agg ":min" || eqs agg "min" || eqs agg "@min" then Math Min
  else if eqs agg ":max" || eqs agg "max" || eqs agg "@max" then Math Max
  else if eqs agg "est+" then Math LowHighEst
  else if eqs agg "x" || eqs agg "X" then Check IfAllNested
  else if eqs agg "x/" || eqs agg "X/" then Check FractionRec
  else if eqs agg "x%" || eqs agg "X%" then Check PercentRec
  else Check IfAllNested.

(** The character classes of lexy that are used *)
Definition digit (c : Z) : bool := (48 <=? c) && (c <=? 57).
Definition alpha (c : Z) : bool := (65 <=? c) && (c <=? 90) || (97 <=? c) && (c <=? 122).
Definition wordc (c : Z) : bool := alpha c || digit c || (c =? 95).
Definition ascii_but (d c : Z) : bool := (0 <=? c) && (c <=? 127) && negb (c =? d).
Definition spacec (c : Z) : bool := (9 <=? c) && (c <=? 13) || (c =? 32).

Fixpoint take (p : Z -> bool) (s : str) : str * str :=
  match s with c :: r => if p c then let (a, b) := take p r in (c :: a, b) else ([], s) | [] => ([], []) end.
(** round_bracketed and curly_bracketed around an identifier, behind the opening sign *)
Definition bracketed (close : Z) (s : str) : option (str * str) :=
  match take (ascii_but close) s with
  | ([], _) => None
  | (a, c :: r) => if c =? close then Some (a, r) else None
  | (_, []) => None
  end.
(** dsl::integer<int> with its peek, 2358 *)
Definition read_width (s : str) : option (option Z * str) :=
  match take digit s with
  | ([], r) => Some (None, r)
  | (ds, r) => let n := fold_left (fun v c => v * 10 + (c - 48)) ds 0 in if n <=? 2147483647 then Some (Some n, r) else None
  end.
(** field, 2332-2352, with its peek, 2359 *)
Definition read_field (s : str) : option (option str * option str * str) :=
  match s with
  | c :: _ =>
      if alpha c then
        match take wordc s with
        | (name, 40 :: r) => match bracketed 41 r with Some (t, r) => Some (Some name, Some t, r) | None => None end
        | (name, r) => Some (Some name, None, r)
        end
      else Some (None, None, s)
  | [] => Some (None, None, s)
  end.
(** aggregate with its peek, 2360 *)
Definition read_summary (s : str) : option (option summary * str) :=
  match s with
  | 123 :: r => match bracketed 125 r with Some (a, r) => Some (Some (summary_of a), r) | None => None end
  | _ => Some (None, s)
  end.
(** column, 2354-2380 *)
Definition read_column (s : str) : option (column * str) :=
  match s with
  | 37 :: s =>
      match read_width s with
      | Some (w, s) =>
          match read_field s with
          | Some (p, t, s) => match read_summary s with Some (a, s) => Some (Column w p t a, s) | None => None end
          | None => None
          end
      | None => None
      end
  | _ => None
  end.
(** columns, 2382-2386; the fuel is the length of the text *)
Fixpoint read_list (fuel : nat) (s : str) : option (list column) :=
  match fuel with
  | O => None
  | S f =>
      match read_column s with
      | Some (c, d :: r) => if spacec d then option_map (cons c) (read_list f r) else Some [c]
      | Some (c, []) => Some [c]
      | None => None
      end
  end.
(** convertCmdColumns, 2389-2408; [s] is the text of the arguments *)
Definition read_view (s : str) : option (list column) := let e := strip_space s in read_list (S (length e)) e.

(** SemOrgFormat.cpp:218-262 *)
Definition write_summary (a : summary) : str :=
  match a with
  | Check FractionRec => lit "x/" | Check PercentRec => lit "x%" | Check IfAllNested => lit "x"
  | Math Max => lit "min" | Math LowHighEst => lit "est+" | Math Mean => lit "avg" | Math Min => lit "min" | Math Sum => lit "sum"
  end.
Definition opt {A} (f : A -> str) (o : option A) : str := match o with Some x => f x | None => [] end.
(** 208-266 *)
Definition write_column (c : column) : str :=
  37 :: opt TimeModel.decimal (cwidth c) ++ opt (fun p => p) (cprop c)
    ++ opt (fun t => lit "(" ++ t ++ lit ")") (ctitle c) ++ opt (fun a => lit "[" ++ write_summary a ++ lit "]") (csum c).
(** 204-270, the line of the settings of the document, behind #+columns: *)
Definition write_view (l : list column) : str := flat_map (fun c => 32 :: write_column c) l.
(** 755-758, the line of a command that is a node, behind #+columns: *)
Definition write_command (l : list column) : str := lit " ".
