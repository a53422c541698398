(** What formatting a plain document is to give. *)
From Verif Require Import Base StrModel ConvModel ConvSpec PlainSpec.
From Verif Require Import FormatModel.
Local Open Scope nat_scope.

(** The document with one empty line after each heading that has something below it and none after the others; empty
    lines after paragraphs stay. *)
Fixpoint tidied (s : section) : section :=
  match s with
  | Sec n t g ps l => Sec n t (match ps, l with [], [] => 0 | _, _ => 1 end) ps (map tidied l)
  end.

(** *** What formatting is to keep *)
(** [within l m]: the parts of [l] are in [m], in the same order. *)
Inductive within {A} : list A -> list A -> Prop :=
| within_none m : within [] m
| within_take x l m : within l m -> within (x :: l) (x :: m)
| within_skip x l m : within l m -> within l (x :: m).
(** The characters of a text that are seen. *)
Definition visible (s : str) : str := filter (fun c => negb ((c =? 32) || (c =? 10))%Z) s.

(** The texts in a block, from left to right and down. *)
Fixpoint texts (b : fblock) : str := match b with WText s => s | WLine l | WStack l => concat (map texts l) end.

(** Trees whose words are all written. Kinds of nodes that are written around what is in them: *)
Definition wraps (k : osk) : bool :=
  match k with
  | oBold | oItalic | oStrike | oUnderline | oVerbatim | oMonospace | oStmtList | oBlockCenter | oBlockExample | oBlockComment
  | oBlockDynamicFallback | oColonExample | oDocument => true
  | _ => false
  end.
(** and those with one tree beside them: *)
Definition carries (k : osk) (f : fld) : bool :=
  match k, f with
  | oLink, FDescription | oInlineFootnote, FDefinition
  | oCmdCaption, FText | oCmdCreator, FText | oCmdAuthor, FText | oCmdCustomText, FText => true
  | _, _ => false
  end.
Inductive keeps : sem -> Prop :=
| keeps_silent s : words s = [] -> keeps s
| keeps_word k w fs subs att d : osk_word k = true -> dtext d = [w] -> fs = [] -> subs = [] -> att = [] -> keeps (Sem k d fs subs att)
| keeps_wrapped k d subs : wraps k = true -> Forall keeps subs -> keeps (Sem k d [] subs [])
| keeps_described k d subs att : k = oList \/ k = oBlockQuote -> Forall keeps subs -> Forall keeps att -> keeps (Sem k d [] subs att)
| keeps_paragraph d subs att : Forall keeps subs -> Forall keeps att ->
    (forall x, subs = [x] -> is_a oLink x = true -> att = [] /\ sattached x = []) -> keeps (Sem oParagraph d [] subs att)
| keeps_heading d t rest subs : keeps t -> (ssubs t = [] -> words t = []) ->
    Forall (fun p => fst p <> FTitle /\ words (snd p) = []) rest -> Forall keeps subs ->
    keeps (Sem oSubtree d ((FTitle, t) :: rest) subs [])
| keeps_item d subs : Forall keeps subs -> keeps (Sem oListItem d [] subs [])
| keeps_described_item d h x subs : keeps h -> Forall keeps (x :: subs) -> keeps (Sem oListItem d [(FHeader, h)] (x :: subs) [])
| keeps_table d rows att : Forall keeps_row rows -> Forall keeps att -> keeps (Sem oTable d rows [] att)
| keeps_carried k d f x : carries k f = true -> keeps x -> keeps (Sem k d [(f, x)] [] [])
| keeps_symbol d xs : Forall keeps xs -> keeps (Sem oSymbol d (map (pair FPositional) xs) [] [])
with keeps_row : fld * sem -> Prop :=
| row_kept f k d cells : osk_word k = false -> Forall keeps_cell cells -> keeps_row (f, Sem k d cells [] [])
with keeps_cell : fld * sem -> Prop :=
| cell_kept f k d subs : osk_word k = false -> Forall keeps subs -> keeps_cell (f, Sem k d [] subs []).
