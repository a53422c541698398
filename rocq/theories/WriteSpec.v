(** How each construct of a document is written, line by line. *)
From Coq Require Import String.
From Verif Require Import Base StrModel LayoutTextSpec ConvModel ConvSpec PlainSpec.
From Verif Require AttrModel.
Local Open Scope nat_scope.

(** Groups of lines right of each other, see [attach]. *)
Definition side (lss : list (list str)) : list str := fold_right LayoutTextSpec.attach [] lss.
(** Texts with another between them. *)
Fixpoint sep_by (sep : str) (l : list str) : str := match l with [] => [] | [x] => x | x :: r => x ++ sep ++ sep_by sep r end.

(** *** Numbers, Lisp code, attributes *)
Definition digit (c : Z) : Prop := (48 <= c <= 57)%Z.
Definition value (s : str) : Z := fold_left (fun a c => 10 * a + (c - 48))%Z s 0%Z.
Inductive decimal : Z -> str -> Prop :=
| dec_zero : decimal 0 (lit "0")
| dec_pos c s : Forall digit (c :: s) -> c <> 48%Z -> decimal (value (c :: s)) (c :: s)
| dec_neg z s : decimal z s -> (0 < z)%Z -> decimal (- z) (45%Z :: s).
Inductive lisp_says (real_text : str -> str) : lisp -> str -> Prop :=
| lisp_true : lisp_says real_text (LBoolean true) (lit "t")
| lisp_nil : lisp_says real_text (LBoolean false) (lit "nil")
| lisp_ident s : lisp_says real_text (LIdent s) s
| lisp_real s : lisp_says real_text (LReal s) (real_text s)
| lisp_number z s : decimal z s -> lisp_says real_text (LNumber z) s
| lisp_text s : lisp_says real_text (LText s) (34%Z :: s ++ [34%Z])
| lisp_call name args ss : Forall2 (lisp_says real_text) args ss -> lisp_says real_text (LCall name args) (40%Z :: spaced (name :: ss) ++ [41%Z])
| lisp_list args ss : Forall2 (lisp_says real_text) args ss -> lisp_says real_text (LList args) (40%Z :: spaced ss ++ [41%Z]).
(** A value with its name and its variable; texts without quotes. *)
Inductive attr_says (real_text : str -> str) : attrv -> str -> Prop :=
| attr_value n v q x sp s : value_says real_text q x s ->
    attr_says real_text (Attrv n v q x sp)
      (match n with Some n => lit ":" ++ n ++ lit " " | None => [] end ++ match v with Some v => v ++ lit "=" | None => [] end ++ s)
with value_says (real_text : str -> str) : bool -> aval -> str -> Prop :=
| value_text s : ~ In 34%Z s -> value_says real_text false (AText s) s
| value_file q f r : value_says real_text q (AFile f r) (f ++ lit ":" ++ r)
| value_lisp q c s : lisp_says real_text c s -> value_says real_text q (ALisp c) s.
(** Values without a name come first, then the named ones, sorted and each once. *)
Fixpoint increasing (l : list str) : Prop :=
  match l with a :: ((b :: _) as r) => AttrModel.str_ltb a b = true /\ increasing r | _ => True end.
Definition attrs_say (real_text : str -> str) (l : list attrv) (s : str) : Prop :=
  exists free nm ss, l = free ++ nm /\ (forall x, In x free -> an x = None) /\
    (exists ks, map (fun x => option_map normalize (an x)) nm = map Some ks /\ increasing ks) /\
    Forall2 (attr_says real_text) l ss /\ s = spaced ss.
(** After a word, if there are any *)
Definition attrs_after (real_text : str -> str) (open close : str) (l : list attrv) (s : str) : Prop :=
  (l = [] /\ s = []) \/ (l <> [] /\ exists t, attrs_say real_text l t /\ s = open ++ t ++ close).

(** *** Targets and tags *)
Inductive target_says : target -> str -> Prop :=
| says_raw s : target_says (TRaw s) s
| says_internal s : target_says (TInternal s) s
| says_person s : target_says (TPerson s) (lit "person:" ++ s)
| says_attachment s : target_says (TAttachment s) (lit "attachment:" ++ s)
| says_file s : target_says (TFile s) (lit "file:" ++ s)
| says_id s : target_says (TId s) (lit "id:" ++ s)
| says_custom s : target_says (TCustomId s) (lit "#" ++ s)
| says_title path : target_says (TTitle 1 path) (lit "*" ++ sep_by (lit "/") path)
| says_note s : target_says (TFootnote s) (lit "fn:" ++ s).
Inductive tag_says : sem -> str -> Prop :=
| tag_alone s : tag_says (Sem oHashTag (text [s]) [] [] []) s
| tag_one s x t : tag_says x t -> tag_says (Sem oHashTag (text [s]) [(FSubtag, x)] [] []) (s ++ lit "##" ++ t)
| tag_some s x y r ss : Forall2 tag_says (x :: y :: r) ss ->
    tag_says (Sem oHashTag (text [s]) (map (pair FSubtag) (x :: y :: r)) [] []) (s ++ lit "##[" ++ sep_by (lit ",") ss ++ lit "]").

(** *** Constructs *)
Definition leaf_marks (k : osk) : option (string * string) :=
  match k with
  | oWord | oSpace | oRawText | oPunctuation | oBigIdent => Some (""%string, ""%string)
  | oEscaped => Some ("\"%string, ""%string)
  | oPlaceholder => Some ("<"%string, ">"%string)
  | oAtMention => Some ("@"%string, ""%string)
  | oCmdEmail => Some ("#+email: "%string, ""%string)
  | oCmdLanguage => Some ("#+language: "%string, ""%string)
  | oCmdName => Some ("#+name: "%string, ""%string)
  | _ => None
  end.
Definition mark_of (k : osk) : option (string * string) :=
  match k with
  | oBold => Some ("*"%string, "*"%string) | oItalic => Some ("/"%string, "/"%string) | oStrike => Some ("+"%string, "+"%string)
  | oUnderline => Some ("_"%string, "_"%string) | oVerbatim => Some ("="%string, "="%string) | oMonospace => Some ("~"%string, "~"%string)
  | _ => None
  end.
Definition edit_mark (w : string) : option (string * string) :=
  if (w =? "{--")%string then Some ("{--", "--}")%string else if (w =? "{++")%string then Some ("{++", "++}")%string
  else if (w =? "{==")%string then Some ("{==", "==}")%string else if (w =? "{>>")%string then Some ("{>>", "<<}")%string else None.
Definition block_name (k : osk) : option string :=
  match k with oBlockCenter => Some "center"%string | oBlockExample => Some "example"%string | oBlockComment => Some "comment"%string | _ => None end.
Definition field_command (k : osk) : option (string * fld * string) :=
  match k with
  | oInlineFootnote => Some ("[fn::"%string, FDefinition, "]"%string)
  | oCmdCaption => Some ("#+caption: "%string, FText, ""%string)
  | oCmdCreator => Some ("#+creator: "%string, FText, ""%string)
  | oCmdAuthor => Some ("#+author: "%string, FText, ""%string)
  | _ => None
  end.
Definition unless_empty (s : str) (x : str) : list str := match s with [] => [] | _ => [x] end.
Definition when (b : bool) (x : str) : list str := if b then [x] else [].
Definition bracket (active : Z) : str * str := if Z.eqb active 1 then (lit "<", lit ">") else (lit "[", lit "]").
Definition checkbox (l : list Z) : str := match l with 0%Z :: _ => lit "[ ] " | 1%Z :: _ => lit "[x] " | 2%Z :: _ => lit "[-] " | _ => [] end.
(** The part of a heading that says how much is done *)
Inductive completion : list Z -> list str -> Prop :=
| not_counted : completion [] []
| counted a b s t : b <> 100%Z -> decimal a s -> decimal b t -> completion [a; b] [lit "[" ++ s ++ lit "/" ++ t ++ lit "]"]
| percent a s : decimal a s -> completion [a; 100%Z] [lit "[" ++ s ++ lit "%]"].
Definition field_of (f : fld) (l : list sem) : list (fld * sem) := map (pair f) l.

(** The first line of a heading: its parts with a space between them *)
Definition heading_text (todo prio : str) (comment archived : bool) (title : str) (done tags : list str) : str :=
  spaced (unless_empty todo todo ++ when comment (lit "COMMENT") ++ unless_empty prio (lit "[#" ++ prio ++ lit "]") ++ [title] ++ done
          ++ match when archived (lit "ARCHIVE") ++ tags with [] => [] | l => [lit ":" ++ sep_by (lit ":") l ++ lit ":"] end).
(** The dates below it *)
Definition date_word (f : fld) : str :=
  match f with FScheduled => lit "SCHEDULED: " | FDeadline => lit "DEADLINE: " | FClosed => lit "CLOSED: " | _ => [] end.
Definition date_texts (fs : list fld) (ss : list str) : list str := map (fun p => date_word (fst p) ++ snd p) (combine fs ss).
Definition dates_in_order (fs : list fld) : Prop :=
  exists a b c : bool, fs = (if a then [FScheduled] else []) ++ (if b then [FDeadline] else []) ++ (if c then [FClosed] else []).

(** Nothing is written for a single newline between blocks. *)
Definition loud (s : sem) : bool := match s with Sem oNewline d _ _ _ => 1 <? length (nth 0 (dtext d) []) | _ => true end.

Section Writes.
Variable time_text : data -> str.
Variable real_text : str -> str.

Unset Elimination Schemes.
(** [writes inside s ls]: [s] is written as the lines [ls]; [inside] a paragraph or not. *)
Inductive writes : bool -> sem -> list str -> Prop :=
| w_leaf i k o c t : leaf_marks k = Some (o, c) -> writes i (Sem k (text [t]) [] [] []) [lit o ++ t ++ lit c]
| w_breaks i n : writes i (leaf oNewline (repeat 10%Z (S (S n)))) (repeat [] (S n))
| w_rule i : writes i (node oTextSeparator []) [lit "------------"]
| w_mark i k o c d subs lss : mark_of k = Some (o, c) -> Forall2 (writes i) subs lss ->
    writes i (Sem k d [] subs []) (side ([lit o] :: lss ++ [[lit c]]))
| w_edit i w o c x y ls : edit_mark w = Some (o, c) -> writes i x ls ->
    Forall (fun z => exists ls, writes i z ls) y -> writes i (Sem oCriticMarkup (text [lit w]) [] (x :: y) []) (side [[lit o]; ls; [lit c]])
| w_replaced i x y ls ms : writes i x ls -> writes i y ms ->
    writes i (Sem oCriticMarkup (text [lit "{~~"]) [] [x; y] []) (side [[lit "{~~"]; ls; [lit "~>"]; ms; [lit "~~}"]])
| w_field i k o f c d x ls : field_command k = Some (o, f, c) -> writes i x ls ->
    writes i (Sem k d [(f, x)] [] []) (side ([lit o] :: ls :: match k with oInlineFootnote => [[lit c]] | _ => [] end))
| w_link i d t s x ls att : dlink d = [t] -> target_says t s -> writes i x ls ->
    writes i (Sem oLink d [(FDescription, x)] [] att) (side [[lit "[["]; [s]; [lit "]["]; ls; [lit "]]"]])
| w_raw_link i d s att : dlink d = [TRaw s] -> writes i (Sem oLink d [] [] att) [s]
| w_note_link i d s att : dlink d = [TFootnote s] -> writes i (Sem oLink d [] [] att) [lit "[fn:" ++ s ++ lit "]"]
| w_bare_link i d t s att : dlink d = [t] -> target_says t s -> (forall x, t <> TRaw x) -> (forall x, t <> TFootnote x) ->
    writes i (Sem oLink d [] [] att) [lit "[[" ++ s ++ lit "]]"]
| w_date i d : nth 1 (dnum d) 0%Z = 1%Z ->
    writes i (Sem oTime d [] [] []) [fst (bracket (nth 0 (dnum d) 0%Z)) ++ time_text d ++ snd (bracket (nth 0 (dnum d) 0%Z))]
| w_computed i d a c s : nth 1 (dnum d) 0%Z <> 1%Z -> dattr d = [[a]] -> adata a = ALisp c -> lisp_says real_text c s ->
    writes i (Sem oTime d [] [] []) [fst (bracket (nth 0 (dnum d) 0%Z)) ++ lit "%%" ++ s ++ snd (bracket (nth 0 (dnum d) 0%Z))]
| w_range i d x y ls ms : writes i x ls -> writes i y ms ->
    writes i (Sem oTimeRange d [(FFrom, x); (FTo, y)] [] []) (side [ls; [lit "--"]; ms])
| w_macro i s : writes i (Sem oMacro (D [s] [] [[]] []) [] [] []) [lit "{{{" ++ s ++ lit "}}}"]
| w_call i s a l ss : Forall2 (attr_says real_text) (a :: l) ss -> Forall (fun x => an x = None) (a :: l) ->
    writes i (Sem oMacro (D [s] [] [a :: l] []) [] [] []) [lit "{{{" ++ s ++ lit "(" ++ sep_by (lit ", ") ss ++ lit ")}}}"]
| w_tag i x s : tag_says x s -> writes i x [35%Z :: s]
| w_target i ws : writes i (Sem oRadioTarget (text ws) [] [] []) [lit "<<<" ++ spaced ws ++ lit ">>>"]
| w_symbol i s xs lss : Forall2 (writes i) xs lss ->
    writes i (Sem oSymbol (text [s]) (field_of FPositional xs) [] []) (side ([lit "\" ++ s] :: map (fun ls => side [[lit "{"]; ls; [lit "}"]]) lss))
| w_export_inline i s t : writes i (Sem oInlineExport (text [s; t]) [] [] []) [lit "@@" ++ s ++ lit ":" ++ t ++ lit "@@"]
| w_code_inline s l a t : attrs_after real_text (lit "[") (lit "]") a t ->
    writes true (Sem oBlockCode (D [s; l] [] [a] []) [] [] []) [lit "src_" ++ s ++ t ++ lit "{" ++ l ++ lit "}"]
(* paragraphs: lines with a line break between them; commands above *)
| w_paragraph i d rows rss att ass : rows <> [] -> Forall (fun r => r <> []) rows -> Forall (Forall (fun x => skind x <> oNewline)) rows ->
    Forall2 (Forall2 (writes true)) rows rss -> Forall2 (writes i) att ass ->
    (forall x, rows = [[x]] -> skind x <> oLink) ->
    writes i (Sem oParagraph d [] (between (leaf oNewline [10%Z]) rows) att) (concat ass ++ concat (map side rss))
| w_link_alone i d x ls ass : skind x = oLink -> writes true x ls -> Forall2 (writes i) (sattached x) ass ->
    writes i (Sem oParagraph d [] [x] []) (concat ass ++ ls)
(* headings *)
| w_heading i stars todo prio comment archived cnt done T title tags tts dates dts subs lss :
    ssubs T <> [] -> writes i T [title] -> completion cnt done -> Forall2 tag_says tags tts ->
    Forall2 (fun p s => writes i (snd p) [s]) dates dts -> dates_in_order (map fst dates) -> Forall2 (writes i) (filter loud subs) lss ->
    writes i (Sem oSubtree (D [todo; prio] ([Z.of_nat stars; flag comment; flag archived] ++ cnt) [] []) ((FTitle, T) :: field_of FTag tags ++ dates) subs [])
      (LayoutTextSpec.attach [repeat 42%Z stars ++ [32%Z]] (heading_text todo prio comment archived title done tts :: date_texts (map fst dates) dts)
       ++ match subs with [] => [] | _ => [] :: concat lss end)
(* lists *)
| w_list i d subs lss att ass : filter loud subs <> [] -> Forall2 (writes i) (filter loud subs) lss -> Forall2 (writes i) att ass ->
    writes i (Sem oList d [] subs att) (concat ass ++ concat lss)
| w_item i b box subs lss : filter loud subs <> [] -> Forall2 (writes i) (filter loud subs) lss ->
    writes i (Sem oListItem (D [b] box [] []) [] subs []) (LayoutTextSpec.attach [b ++ lit " " ++ checkbox box] (concat lss))
| w_item_described i b box h hs x ls subs lss : writes i h hs -> writes i x ls -> Forall2 (writes i) (filter loud subs) lss ->
    writes i (Sem oListItem (D [b] box [] []) [(FHeader, h)] (x :: subs) [])
      (LayoutTextSpec.attach [b ++ lit " " ++ checkbox box] (side [hs; [lit " :: "]; ls] ++ [] :: concat lss))
(* tables: the texts of the cells *)
| w_table i d rows tss att ass : rows <> [] -> nth 0 (dnum d) 0%Z <> 1%Z ->
    Forall2 (row_texts i) rows tss -> Forall2 (writes i) att ass ->
    writes i (Sem oTable d rows [] att) (concat ass ++ map (fun r => lit "| " ++ concat (map (fun c => concat (map (fun s => lit " " ++ s ++ lit " ") c) ++ lit "|") r)) tss)
(* blocks *)
| w_code s lines a t att ass : attrs_after real_text (lit " ") [] a t -> Forall2 (writes false) att ass ->
    writes false (Sem oBlockCode (D (s :: lines) [] [a] []) [] [] att)
      (concat ass ++ (lit "#+begin_src" ++ match s with [] => [] | _ => lit " " ++ s end ++ t) :: lines ++ [lit "#+end_src"])
| w_export i s content a t : attrs_after real_text (lit " ") [] a t ->
    writes i (Sem oBlockExport (D [s; content] [] [a] []) [] [] []) [lit "#+begin_export " ++ s ++ t; content; lit "#+end_export"]
| w_block i k w d subs lss : block_name k = Some w -> Forall2 (writes i) subs lss ->
    writes i (Sem k d [] subs []) ((lit "#+begin_" ++ lit w) :: concat lss ++ [lit "#+end_" ++ lit w])
| w_block_named i s d subs lss : dtext d = [s] -> Forall2 (writes i) subs lss ->
    writes i (Sem oBlockDynamicFallback d [] subs []) ((lit "#+begin_" ++ s) :: concat lss ++ [lit "#+end_" ++ s])
| w_quote i d subs lss att ass : dattr d = [] -> Forall2 (writes i) subs lss -> Forall2 (writes i) att ass ->
    writes i (Sem oBlockQuote d [] subs att) (concat ass ++ lit "#+begin_quote " :: concat lss ++ [lit "#+end_quote"])
| w_colon i d subs lss : subs <> [] -> Forall2 (writes i) subs lss ->
    writes i (Sem oColonExample d [] subs []) (concat (map (LayoutTextSpec.attach [lit ": "]) lss))
(* commands *)
| w_command i s t : writes i (Sem oCmdCustomRaw (text [s; t]) [] [] []) [lit "#+" ++ s ++ lit ": " ++ t]
| w_command_text i s x ls : writes i x ls -> writes i (Sem oCmdCustomText (text [s]) [(FText, x)] [] []) (side [[lit "#+" ++ s ++ lit ": "]; ls])
| w_command_attr i s a t : attrs_say real_text a t -> writes i (Sem oCmdAttr (D [s] [] [a] []) [] [] []) [lit "#+attr_" ++ s ++ lit ": " ++ t]
| w_document i d subs lss : filter loud subs <> [] -> Forall2 (writes i) (filter loud subs) lss -> writes i (Sem oDocument d [] subs []) (concat lss)
with row_texts : bool -> fld * sem -> list (list str) -> Prop :=
| row_of i f k d cells tss : nth 0 (dnum d) 0%Z <> 1%Z -> Forall2 (cell_texts i) cells tss -> row_texts i (f, Sem k d cells [] []) tss
with cell_texts : bool -> fld * sem -> list str -> Prop :=
| cell_of i f k d items ss : Forall2 (fun x s => writes i x [s]) items ss -> cell_texts i (f, Sem k d [] items []) ss.
Set Elimination Schemes.
End Writes.

(** A text without the spaces at the ends of its lines. *)
Definition no_trailing (s out : str) : Prop :=
  exists ls ms, s = in_lines ls /\ out = in_lines ms /\ Forall (fun l => ~ In 10%Z l) ls /\
    Forall2 (fun l m => exists n, l = m ++ repeat 32%Z n /\ forall p, m <> p ++ [32%Z]) ls ms.
