(** Writing of XML: src/hstd/stdlib/Xml.cpp. Line numbers are those of this file.

    Simplified: one constructor for each kind of node, with the fields this kind looks at. *)
From Coq Require Import String.
From Verif Require Import Base StrModel AttrModel.
Local Open Scope Z_scope.

Inductive node :=
| Element (tag : str) (attrs : list (str * str)) (text : str) (subs : list node)
| Comment (text : str) | CData (text : str) | Raw (text : str).

(** set_attr, 16-24 *)
Fixpoint set_attr (l : list (str * str)) (name value : str) : list (str * str) :=
  match l with
  | [] => [(name, value)]
  | (k, v) :: r => if str_eqb k name then (k, value) :: r else (k, v) :: set_attr r name value
  end.
(** write_escaped, 92-101 *)
Definition escape_char (c : Z) : str :=
  if c =? 38 then lit "&amp;" else if c =? 60 then lit "&lt;" else if c =? 62 then lit "&gt;" else [c].
Definition escape (s : str) : str := flat_map escape_char s.
(** write_attr_escaped, 103-114 *)
Definition attr_char (c : Z) : str :=
  if c =? 38 then lit "&amp;" else if c =? 60 then lit "&lt;" else if c =? 62 then lit "&gt;"
  else if c =? 34 then lit "&quot;" else if c =? 39 then lit "&apos;" else [c].
Definition escape_attr (s : str) : str := flat_map attr_char s.
(** write_comment_escaped, 116-135 *)
Fixpoint escape_comment (dash : bool) (s : str) : str :=
  match s with
  | [] => if dash then lit "&#45;" else []
  | c :: r =>
      if c =? 45 then if dash then lit "&#45;" ++ escape_comment false r else 45 :: escape_comment true r
      else c :: escape_comment false r
  end.

Definition pad (depth indent : nat) : str := repeat 32 (depth * indent).
Definition brk (indent : nat) : str := match indent with O => [] | _ => [10] end.
Definition write_attr (a : str * str) : str := 32 :: fst a ++ lit "=""" ++ escape_attr (snd a) ++ lit """".
(** The part of serialize_impl for elements, 55-90; [inner] are the subnodes, written *)
Definition write_element (depth indent : nat) (tag : str) (attrs : list (str * str)) (text : str) (none : bool) (inner : str) : str :=
  pad depth indent ++ [60] ++ tag ++ flat_map write_attr attrs ++
  match text, none with
  | [], true => lit "/>" ++ brk indent
  | _, false =>
      [62] ++ brk indent ++ (match text with [] => [] | _ => pad (S depth) indent ++ escape text ++ brk indent end)
      ++ inner ++ pad depth indent ++ lit "</" ++ tag ++ [62] ++ brk indent
  | _, true => [62] ++ escape text ++ lit "</" ++ tag ++ [62] ++ brk indent
  end.
(** serialize_impl, 40-90; a raw node has no tag, no attributes and no subnodes, and is written as an element *)
Fixpoint serialize (indent depth : nat) (n : node) : str :=
  match n with
  | Comment t => pad depth indent ++ lit "<!--" ++ escape_comment false t ++ lit "-->" ++ [10]
  | CData t => pad depth indent ++ lit "<![CDATA[" ++ t ++ lit "]]>" ++ [10]
  | Element tag attrs t subs =>
      write_element depth indent tag attrs t (match subs with [] => true | _ => false end) (flat_map (serialize indent (S depth)) subs)
  | Raw t => write_element depth indent [] [] t true []
  end.
(** to_string, 34-38 *)
Definition to_string (indent : nat) (n : node) : str := serialize indent 0 n.
